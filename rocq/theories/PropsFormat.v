(** Property theorems C84: what is written in a format is read back, and nothing else. *)
From Coq Require Import List Bool Arith Lia.
From Verif Require Import Base Parsers Combinators Buffer Stream SpecBase SpecSafe SpecIter SpecLaws SpecBuffer SpecStream SpecLoop SpecAnyBuffer SpecFormat Format SpecFormatStream
  SafeProofs StableProofs ManyProofs LawsProofs SimProofs FormatProofs FormatStreamProofs PropsStream PropsAnyBuffer PropsLoop.
Import ListNotations.

Set Implicit Arguments.

(** A value written in front of something that cannot be taken for a part of it is read back, and the rest is left. *)
Theorem C84_read_back : forall I v (eqb : I -> I -> bool) extra T (f : fmt I T), unambiguous eqb f -> forall x t rest, written eqb f x t -> clear_of (prolongs eqb f) rest ->
  reader v eqb extra f (mkInput true (t ++ rest)) = Data (mkInput true rest) x.
Proof. intros I v eqb extra T f Hu x t rest Hw Hc. destruct (unambiguous_law v eqb extra f Hu) as (_ & H & _). apply H; assumption. Qed.
Print Assumptions C84_read_back.

(** Whatever is read was written, ambiguous or not, whether more may follow or not. *)
Theorem C84_only : forall I v (eqb : I -> I -> bool) extra T (f : fmt I T), grounded f -> forall l s j x, reader v eqb extra f (mkInput l s) = Data j x ->
  last j = l /\ exists t, written eqb f x t /\ s = t ++ buf j.
Proof. intros I v eqb extra T f Hg l s j x H. exact (grounded_only v eqb extra f Hg _ _ H). Qed.
Print Assumptions C84_only.

(** Both: on a slice as a whole, reading is the converse of writing. *)
Theorem C84_whole : forall I v (eqb : I -> I -> bool) extra T (f : fmt I T), unambiguous eqb f -> forall s x,
  parse_only (to_the_end v (reader v eqb extra f)) s = OOk x <-> written eqb f x s.
Proof.
  intros I v eqb extra T f Hu s x. split.
  - unfold parse_only, to_the_end. destruct (reader v eqb extra f (mkInput true s)) as [j y|? ?|?| |] eqn:Hr; cbn [bind]; try discriminate. rewrite honest_map_err_id by exact j.
    destruct (C84_only v eqb extra f (unambiguous_grounded eqb _ Hu) _ _ Hr) as (Hl & t & Hw & ->). destruct j as [l [|z b]]; cbn [buf last] in *; subst l; cbn; [|destruct v; discriminate].
    intros H. inversion H; subst. rewrite app_nil_r. exact Hw.
  - intros Hw. unfold parse_only, to_the_end. rewrite <- (app_nil_r s). rewrite (@C84_read_back _ v eqb extra _ f Hu x s [] Hw Logic.I). reflexivity.
Qed.
Print Assumptions C84_whole.

(** So a text in front of something foreign to it has one value and one end.  No reference to the parser. *)
Theorem C84_unique : forall I (eqb : I -> I -> bool) T (f : fmt I T), unambiguous eqb f -> forall x y t u r s, written eqb f x t -> written eqb f y u ->
  clear_of (prolongs eqb f) r -> clear_of (prolongs eqb f) s -> t ++ r = u ++ s -> x = y /\ t = u /\ r = s.
Proof.
  intros I eqb T f Hu x y t u r s Hx Hy Hr Hs He. pose proof (@C84_read_back I true eqb 0 T f Hu x t r Hx Hr) as H1. pose proof (@C84_read_back I true eqb 0 T f Hu y u s Hy Hs) as H2.
  rewrite He, H2 in H1. inversion H1; subst. split; [reflexivity|]. split; [|reflexivity]. eapply app_inv_tail. exact He.
Qed.
Print Assumptions C84_unique.

(** Where no text begins, the parser fails, unless the empty text is one; it never panics and never fails to answer. *)
Theorem C84_refuses : forall I v (eqb : I -> I -> bool) extra T (f : fmt I T), unambiguous eqb f -> forall s, clear_of (begins eqb f) s ->
  if nul f then exists x, reader v eqb extra f (mkInput true s) = Data (mkInput true s) x else fails_on (reader v eqb extra f) (mkInput true s).
Proof. intros I v eqb extra T f Hu s Hc. destruct (unambiguous_law v eqb extra f Hu) as (_ & _ & H & _). apply H; assumption. Qed.
Print Assumptions C84_refuses.
Theorem C84_returns : forall I v (eqb : I -> I -> bool) extra T (f : fmt I T), unambiguous eqb f -> forall i,
  (exists j x, reader v eqb extra f i = Data j x) \/ fails_on (reader v eqb extra f) i.
Proof.
  intros I v eqb extra T f Hu i. destruct (unambiguous_law v eqb extra f Hu) as (_ & _ & _ & H). specialize (H i). unfold fails_on.
  destruct (reader v eqb extra f i); try tauto; [left; eauto|right; left; eauto|right; right; eauto].
Qed.
Print Assumptions C84_returns.

(** The budget of the loops makes no difference. *)
Theorem C84_budget : forall I v (eqb : I -> I -> bool) T (f : fmt I T), unambiguous eqb f -> forall m n i, reader v eqb m f i = reader v eqb n f i.
Proof. intros I v eqb T f Hu m n i. apply budget_free. assumption. Qed.
Print Assumptions C84_budget.

(** When a part of the text is there and more may follow, the parser asks for more; when all of it is there, it gives the value or asks for more. *)
Theorem C84_cut : forall I v (eqb : I -> I -> bool) extra T (f : fmt I T), unambiguous eqb f -> streams v eqb extra f -> forall x a b, written eqb f x (a ++ b) -> b <> [] ->
  exists n, reader v eqb extra f (mkInput false a) = Incomplete n.
Proof.
  intros I v eqb extra T f Hu Hs x a b Hw Hb. pose proof (@streams_stable I v eqb extra T f Hu Hs a true b) as H. pose proof (@C84_read_back I v eqb extra T f Hu x (a ++ b) [] Hw Logic.I) as Hr. rewrite app_nil_r in Hr.
  rewrite Hr in H. destruct (C84_returns v eqb extra f Hu (mkInput false a)) as [(j & y & Hj)|[(c & e & Hj)|(n & Hj)]]; rewrite Hj in H; cbn in H; [|discriminate|eauto].
  inversion H as [[Hn Hy]]. symmetry in Hn. apply app_eq_nil in Hn. destruct Hn as [_ Hn]. contradiction.
Qed.
Print Assumptions C84_cut.
Theorem C84_arrived : forall I v (eqb : I -> I -> bool) extra T (f : fmt I T), unambiguous eqb f -> streams v eqb extra f -> forall x t c, written eqb f x t -> clear_of (prolongs eqb f) c ->
  reader v eqb extra f (mkInput false (t ++ c)) = Data (mkInput false c) x \/ exists n, reader v eqb extra f (mkInput false (t ++ c)) = Incomplete n.
Proof.
  intros I v eqb extra T f Hu Hs x t c Hw Hc. pose proof (@streams_stable I v eqb extra T f Hu Hs (t ++ c) true []) as H. rewrite app_nil_r, (@C84_read_back I v eqb extra T f Hu x t c Hw Hc) in H.
  destruct (C84_returns v eqb extra f Hu (mkInput false (t ++ c))) as [(j & y & Hj)|[(d & e & Hj)|(n & Hj)]]; rewrite Hj in H; cbn in H; [|discriminate|eauto].
  left. rewrite Hj. destruct (C84_only v eqb extra f (unambiguous_grounded eqb _ Hu) _ _ Hj) as [Hl _]. destruct j as [l d]. cbn in *. subst l. rewrite app_nil_r in H. inversion H; subst. reflexivity.
Qed.
Print Assumptions C84_arrived.

(** A file of records: a loop over a Source of any kind, in any pieces and with any errors in between, gives the values of the records and then the end of the input, if
    and only if the data is the text of the records.  [fits]: the buffer has room for what the parser asks for. *)
Theorem C84_source : forall St I B T v (eqb : I -> I -> bool) extra (f : fmt I T) (ds : data_source St I) (ops : buffer_ops I B) fits b0 R s data e fuel,
  unambiguous eqb f -> streams v eqb extra f -> nul f = false -> apart (prolongs eqb f) (begins eqb f) ->
  obeys ds -> delivers ds R -> R s data e -> lawful ops fits b0 -> fits 1 ->
  (forall rest b c n, suffix rest data -> rest = b ++ c -> reader v eqb extra f (mkInput false b) = Incomplete n -> fits (Nat.min (length b + n) (length rest))) ->
  2 * length data + e + 2 <= fuel -> forall vs m, length vs < m ->
  on_source ds ops fuel (until_failure (reader v eqb extra f) m) (src_with_buffer s b0) = Done (List.map inl vs ++ [inr SEndOfInput]) <-> each_written (written eqb f) vs data.
Proof.
  intros St I B T v eqb extra f ds ops fits b0 R s data e fuel Hu Hs Hn Ha Ho HR Hd L Hone Hfit Hfuel vs m Hm.
  pose proof (unambiguous_grounded eqb _ Hu) as Hg. pose proof (grounded_honest v eqb extra f Hg) as Hw.
  assert (Hna : forall i, reader v eqb extra f i <> NoFuel) by (intros i; destruct (C84_returns v eqb extra f Hu i) as [(j & y & H)|[(c & x & H)|(n & H)]]; rewrite H; discriminate).
  assert (He : fails_on (reader v eqb extra f) (mkInput true [])).
  { pose proof (C84_refuses v eqb extra f Hu [] Logic.I) as H. rewrite Hn in H. exact H. }
  assert (Hss : forall k ss, ss_slice ss = data -> script_suits fits ss (until_failure (reader v eqb extra f) k)).
  { induction k as [|k IH]; intros ss Hsl; [apply ss_stop|]. apply ss_next.
    - split; auto.
      + apply streams_stable; assumption.
      + intros _. destruct (@streams_hungry I v eqb extra T f Hu Hs) as [H|[H _]]; [exact H|congruence].
      + intros b c n Hr H. eapply Hfit; [|exact Hr|exact H]. exists (firstn (ss_pos ss) (ss_slice ss)). rewrite firstn_skipn. auto.
    - intros ss' r H. assert (Hk : ss_slice ss' = data).
      { unfold slice_parse in H. destruct (slice_is_empty ss) as [[|]| | |]; cbn in H; try discriminate; [inversion H; subst ss'; exact Hsl|].
        destruct (reader v eqb extra f _); try discriminate; destruct (slice_len ss) as [l| | |]; cbn in H; try discriminate;
          try (destruct (usize_sub l _); cbn in H; try discriminate); inversion H; subst ss'; exact Hsl. }
      destruct r as [x|x]; cbn; [apply IH; exact Hk|]. destruct x; apply ss_stop. }
  assert (Heq : on_source ds ops fuel (until_failure (reader v eqb extra f) m) (src_with_buffer s b0) = on_slice (until_failure (reader v eqb extra f) m) (slice_new data))
    by (eapply C63_answers; eauto).
  rewrite Heq.
  assert (Hr : nonempty RFull) by (exists 0; exact Logic.I).
  assert (Hmu : unambiguous eqb (FMany RFull f)) by (cbn; auto).
  split.
  - intros H. destruct (proj2 (C66_many Hw He Hna data vs SEndOfInput) (ex_intro _ m H)) as (rest & Hset & Hend). unfold many in Hset.
    destruct rest as [|z rest]; [|cbn in Hend; destruct Hend as [(b & x & _ & Hend)|(n & _ & Hend)]; discriminate].
    rewrite many_settles in Hset by exact Hr. inversion Hset as [us y j Hi _ _| | |]; subst.
    destruct (@only_iterates I unit T (error I) (written eqb f) (pure (reader v eqb extra f)) (fun _ => grounded_only v eqb extra f Hg) _ _ _ _ _ _ Hi) as (_ & t & Ht & ->). cbn. rewrite app_nil_r. exact Ht.
  - intros H. assert (Hback : reader v eqb extra (FMany RFull f) (mkInput true data) = Data (mkInput true []) vs).
    { rewrite <- (app_nil_r data). apply (@C84_read_back I v eqb extra _ (FMany RFull f) Hmu vs data []); [split; [exact Logic.I|exact H]|exact Logic.I]. }
    cbn [reader] in Hback. destruct (proj1 (C66_many Hw He Hna data vs SEndOfInput)) as [n Hl].
    { exists []. split; [|reflexivity]. unfold many. rewrite many_settles by exact Hr. eapply bmany_sound; [exact Hr|exact Hback|discriminate]. }
    edestruct C66_calls as [_ Hc]; [exact Hw|exact He|exact Hna|exact Hl|]. exact (Hc m Hm).
Qed.
Print Assumptions C84_source.

(** * Formats *)
Definition C84_digit (c : nat) : bool := (48 <=? c) && (c <=? 57).
Definition C84_number (ds : list nat) : nat := fold_left (fun n d => 10 * n + (d - 48)) ds 0.

(** Netstrings, "5:hello,": the length, then that many items. *)
Definition C84_net : fmt nat (nat * unit * (list nat * unit)) :=
  FBind (FSeq (FMap C84_number (FSpan1 C84_digit)) (FLit [58])) (fun n => FSeq (FTake (fst n)) (FLit [44])).
Example C84_net_ok : forall v extra, unambiguous Nat.eqb C84_net /\ streams v Nat.eqb extra C84_net /\ nul C84_net = false /\ apart (prolongs Nat.eqb C84_net) (begins Nat.eqb C84_net).
Proof.
  intros v extra. split; [|split; [|split]].
  - cbn -[Nat.eqb C84_digit]. repeat split; try (intros x Hx Hy; tauto).
    + intros x Hx Hy. apply Nat.eqb_eq in Hy. subst x. discriminate.
    + intros x [[]|[H _]]. discriminate.
  - cbn. auto.
  - reflexivity.
  - intros x [n [[[]|[H _]]|[H _]]]; [discriminate|]. apply andb_true_iff in H. destruct H as [_ H]. discriminate.
Qed.
Example C84_net_case : written Nat.eqb C84_net (3, tt, ([9; 44; 58], tt)) [51; 58; 9; 44; 58; 44] /\
  reader true Nat.eqb 0 C84_net (mkInput true ([51; 58; 9; 44; 58; 44] ++ [49])) = Data (mkInput true [49]) (3, tt, ([9; 44; 58], tt)) /\
  reader true Nat.eqb 0 C84_net (mkInput false [51; 58; 9; 44; 58]) = Incomplete 1 /\
  reader true Nat.eqb 0 C84_net (mkInput false [51; 58; 9]) = Incomplete 2.
Proof.
  split; [|repeat split]. exists [51; 58], [9; 44; 58; 44]. split; [reflexivity|]. split.
  - exists [51], [58]. repeat split; [|repeat constructor]. exists [51]. repeat split; [repeat constructor|discriminate].
  - exists [9; 44; 58], [44]. repeat split. repeat constructor.
Qed.
(** A stream of netstrings, from any reader. *)
Example C84_net_source : forall cs vs m, ~ In (Some []) cs -> length vs < m ->
  on_source (read_data_source chunk_read) (growing_ops nat) (2 * length (chunks_data cs) + chunks_errors cs + 2) (until_failure (reader true Nat.eqb 0 C84_net) m)
    (src_with_buffer cs (growing_with_limit 0 (fun n => n) 0)) = Done (List.map inl vs ++ [inr SEndOfInput]) <->
  each_written (written Nat.eqb C84_net) vs (chunks_data cs).
Proof.
  intros cs vs m Hcs Hm. destruct (C84_net_ok true 0) as (H1 & H2 & H3 & H4).
  eapply C84_source with (fits := fun _ => True) (R := schedule); eauto using chunk_obeys, chunk_delivers.
  - split; [assumption|split; reflexivity].
  - apply tight_lawful. apply C63_growing.
Qed.

(** A parser of one's own: everything up to a newline, and the newline ([take_till], [token]: src/parsers.rs:276-286, 100-108). *)
Definition C84_until_newline (i : input nat) : pres nat (list nat) (error nat) :=
  bind (fun e => e) (take_till (fun x => x =? 10) i) (fun i t => map (fun _ => t) (token true Nat.eqb 10 i)).
Definition C84_line : fmt nat (list nat) := FOwn (fun v t => t = v ++ [10] /\ Forall (fun x => x <> 10) v) false (fun _ => True) (fun _ => False) C84_until_newline.
Lemma C84_newline : forall v s l, Forall (fun x => x <> 10) v -> C84_until_newline (mkInput l (v ++ 10 :: s)) = Data (mkInput l s) v.
Proof.
  intros v s l H. unfold C84_until_newline, take_till. cbn [buf].
  assert (Hp : position (fun x => x =? 10) (v ++ 10 :: s) = Some (length v)).
  { induction H as [|x v Hx H IH]; [reflexivity|]. cbn. destruct (Nat.eqb_spec x 10); [contradiction|]. rewrite IH. reflexivity. }
  rewrite Hp. unfold ret, replace. cbn [last]. rewrite firstn_app, firstn_all, Nat.sub_diag, skipn_app, skipn_all, Nat.sub_diag. cbn. rewrite app_nil_r. reflexivity.
Qed.
Lemma C84_no_newline : forall v l, Forall (fun x => x <> 10) v -> C84_until_newline (mkInput l v) = Incomplete 1.
Proof.
  intros v l H. unfold C84_until_newline, take_till. cbn [buf]. assert (Hp : position (fun x => x =? 10) v = None).
  { induction H as [|x v Hx H IH]; [reflexivity|]. cbn. destruct (Nat.eqb_spec x 10); [contradiction|]. rewrite IH. reflexivity. }
  rewrite Hp. reflexivity.
Qed.
Lemma C84_line_split : forall s, Forall (fun x => x <> 10) s \/ exists v t, s = v ++ 10 :: t /\ Forall (fun x => x <> 10) v.
Proof.
  induction s as [|x s [IH|(v & t & -> & IH)]]; [left; constructor| |]; destruct (Nat.eq_dec x 10) as [->|Hx].
  - right. exists [], s. split; [reflexivity|constructor].
  - left. constructor; assumption.
  - right. exists [], (v ++ 10 :: t). split; [reflexivity|constructor].
  - right. exists (x :: v), t. split; [reflexivity|constructor; assumption].
Qed.
Example C84_line_ok : forall v extra, unambiguous Nat.eqb C84_line /\ streams v Nat.eqb extra C84_line.
Proof.
  intros v extra. assert (Hs : safe C84_until_newline) by (apply s_bind; [apply s_take_till|intros t; apply s_map; apply s_token]).
  cbn [unambiguous streams C84_line]. split; [repeat split|split; [apply safe_stable; exact Hs|left; exists 1; reflexivity]].
  - intros x t [-> _]. destruct x; exact Logic.I.
  - intros x t rest [-> H] _. rewrite <- app_assoc. apply C84_newline. exact H.
  - destruct (C84_line_split s) as [Hn|(u & t & -> & Hn)]; [rewrite C84_no_newline in H by exact Hn; discriminate|]. rewrite C84_newline in H by exact Hn. inversion H. reflexivity.
  - destruct (C84_line_split s) as [Hn|(u & t & -> & Hn)]; [rewrite C84_no_newline in H by exact Hn; discriminate|]. rewrite C84_newline in H by exact Hn. inversion H; subst.
    exists (v0 ++ [10]). split; [auto|]. rewrite <- app_assoc. reflexivity.
  - intros [|x s] Hc; [|exfalso; apply Hc; exact Logic.I]. right. exists 1. apply C84_no_newline. constructor.
  - destruct i as [l s]. destruct (C84_line_split s) as [Hn|(u & t & -> & Hn)]; [rewrite C84_no_newline by exact Hn|rewrite C84_newline by exact Hn]; discriminate.
  - destruct i as [l s]. destruct (C84_line_split s) as [Hn|(u & t & -> & Hn)]; [rewrite C84_no_newline by exact Hn|rewrite C84_newline by exact Hn]; discriminate.
  - apply built_well_behaved, safe_built, Hs.
Qed.

(** Lists in brackets, of numbers separated by commas: "[1,23,4]", "[]"; optionally signed. *)
Definition C84_list : fmt nat (unit * (list (option nat * nat) * unit)) :=
  FSeq (FLit [91]) (FSeq (FSepBy (FSeq (FOption (FItem (fun c => c =? 45))) (FMap C84_number (FSpan1 C84_digit))) (FLit [44])) (FLit [93])).
Example C84_list_ok : unambiguous Nat.eqb C84_list.
Proof.
  cbn -[Nat.eqb C84_digit]. unfold apart. repeat split; auto; intros x Hx Hy;
    repeat match goal with H : _ \/ _ |- _ => destruct H | H : _ /\ _ |- _ => destruct H | H : (_ =? _) = true |- _ => apply Nat.eqb_eq in H; subst | H : False |- _ => destruct H end; try discriminate.
Qed.
Example C84_list_case : written Nat.eqb C84_list (tt, ([(None, 12); (Some 45, 3)], tt)) [91; 49; 50; 44; 45; 51; 93] /\
  parse_only (to_the_end true (reader true Nat.eqb 0 C84_list)) [91; 49; 50; 44; 45; 51; 93] = OOk (tt, ([(None, 12); (Some 45, 3)], tt)) /\
  parse_only (to_the_end true (reader true Nat.eqb 0 C84_list)) [91; 93] = OOk (tt, ([], tt)).
Proof. rewrite <- (C84_whole true Nat.eqb 0 C84_list C84_list_ok). repeat split. Qed.

(** Where the next item does not tell, what is written need not be read back: digits, then one more digit. *)
Definition C84_greedy : fmt nat (list nat * nat) := FSeq (FSpan C84_digit) (FItem C84_digit).
Theorem C84_ambiguous_refuted : grounded C84_greedy /\ ~ unambiguous Nat.eqb C84_greedy /\ written Nat.eqb C84_greedy ([49], 50) [49; 50] /\
  forall v extra, reader v Nat.eqb extra C84_greedy (mkInput true [49; 50]) = Incomplete 1.
Proof.
  repeat split.
  - intros (_ & _ & H). exact (H 49 eq_refl eq_refl).
  - exists [49], [50]. repeat split. repeat constructor.
Qed.
Print Assumptions C84_ambiguous_refuted.
