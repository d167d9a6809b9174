(** Property theorems C67: calls one after the other are one call. *)
From Coq Require Import List Bool Arith Lia.
From Verif Require Import Base Parsers Combinators Buffer Stream SpecBase SpecSafe SpecBuffer SpecStream SpecLoop SpecChain
  SafeProofs StreamProofs SimProofs SpecAnyBuffer ChainProofs PropsStream PropsAnyBuffer.
Import ListNotations.

Set Implicit Arguments.

(** What one call with the parsers put together answers, and where it leaves the stream, given the answers of the calls one by one.  It succeeds if they all
    do, and fails with the error of the one that fails, at the same place; but if that one has not enough input then nothing at all is consumed.  At the end of
    the data a call of its own is told [EndOfInput], and the parser in the middle of another fails. *)
Theorem C67_slice : forall I T E (p : parser I T E) k data pos,
  each (fun p => well_behaved p /\ fails_on p (mkInput true [])) (Call p k) -> pos <= length data ->
  slice_parse (in_one (Call p k)) (mkSliceStream pos data) =
  match talk (Call p k) (mkSliceStream pos data) with
  | Done (s', ts, x) =>
      match x with
      | None => Done (s', inl ts)
      | Some (SParseError b y) => Done (s', inr (SParseError b y))
      | Some (SIncomplete n) => Done (mkSliceStream pos data, inr (SIncomplete (n + (ss_pos s' - pos))))
      | Some SEndOfInput =>
          match ts, turn (Call p k) ts with
          | [], _ => Done (s', inr SEndOfInput)
          | _, Some q => match q (mkInput true []) with
                         | Error _ y => Done (s', inr (SParseError [] y))
                         | Incomplete m => Done (mkSliceStream pos data, inr (SIncomplete (m + (length data - pos))))
                         | _ => Undefined
                         end
          | _, None => Undefined
          end
      | Some _ => Undefined
      end
  | Panicked => Panicked
  | Undefined => Undefined
  | Stuck => Stuck
  end.
Proof.
  intros I T E p k data pos Hc Hl.
  assert (Hw : each (@well_behaved I T E) (Call p k)) by (eapply each_impl; [|exact Hc]; intros q Hq; apply Hq).
  pose proof (@talk_in_one I T E data (Call p k) Hw pos Hl) as H. pose proof (in_one_well_behaved _ Hw) as Hi.
  destruct (Nat.eq_dec pos (length data)) as [->|Hne].
  - cbn [talk]. rewrite !slice_end. reflexivity.
  - pose proof (@slice_call I data (list T) E (in_one (Call p k)) pos Hi ltac:(lia)) as Hs.
    destruct (talk (Call p k) (mkSliceStream pos data)) as [[[s' ts] e]| | |] eqn:Ht.
    + destruct H as (pos' & -> & Hpos & H). destruct e as [[b x|n|n| |]|]; cbn [ss_pos].
      * destruct H as [-> H]. rewrite H in Hs. destruct Hs as (pos2 & Hp2 & Hb & ->). apply (f_equal (@length I)) in Hb. rewrite !skipn_length in Hb.
        replace pos2 with pos' by lia. reflexivity.
      * destruct H as (m & -> & H). rewrite H in Hs. rewrite Hs. do 4 f_equal. lia.
      * destruct H.
      * destruct H as [-> (q & Hq & H)]. destruct ts as [|t ts].
        { exfalso. cbn [talk] in Ht. pose proof (@slice_call I data T E p pos (proj1 Hw) ltac:(lia)) as Hp.
          destruct (p (mkInput true (skipn pos data))) as [j v|b y|n| |].
          - destruct Hp as (pos1 & _ & _ & Hp). rewrite Hp in Ht. cbn [run_bind] in Ht. destruct (talk (k v) _) as [[[s2 ts2] e2]| | |]; cbn [run_bind] in Ht; discriminate.
          - destruct Hp as (pos1 & _ & _ & Hp). rewrite Hp in Ht. discriminate.
          - rewrite Hp in Ht. discriminate.
          - rewrite Hp in Ht. discriminate.
          - rewrite Hp in Ht. discriminate. }
        rewrite Hq.
        assert (Hf : fails_on q (mkInput true [])).
        { clear - Hc Hq. revert Hc Hq. generalize (Call p k). generalize (t :: ts). clear. intros l c. revert l. induction c as [|p k IH]; intros [|t l] Hc Hq; cbn in Hq; try discriminate.
          - inversion Hq; subst. apply Hc.
          - eapply IH; [apply Hc|eassumption]. }
        destruct Hf as [(b & x & Hx)|(m & Hx)]; rewrite Hx in *; rewrite H in Hs.
        -- destruct Hs as (pos2 & Hp2 & Hb & ->). apply (f_equal (@length I)) in Hb. rewrite skipn_length in Hb. cbn in Hb. replace pos2 with (length data) by lia. reflexivity.
        -- exact Hs.
      * destruct H.
      * rewrite H in Hs. destruct Hs as (pos2 & Hp2 & Hb & ->). apply (f_equal (fun i => length (buf i))) in Hb. cbn [buf] in Hb. rewrite !skipn_length in Hb.
        replace pos2 with pos' by lia. reflexivity.
    + rewrite H in Hs. exact Hs.
    + destruct H.
    + rewrite H in Hs. exact Hs.
Qed.
Print Assumptions C67_slice.

(** If all the calls succeed one by one then so does the one call, with the same values and up to the same place, also if parsers succeed on nothing. *)
Theorem C67_success : forall I T E (p : parser I T E) k data pos s' ts, each (@well_behaved I T E) (Call p k) -> pos <= length data ->
  talk (Call p k) (mkSliceStream pos data) = Done (s', ts, None) -> slice_parse (in_one (Call p k)) (mkSliceStream pos data) = Done (s', inl ts).
Proof.
  intros I T E p k data pos s' ts Hw Hl Ht.
  pose proof (@talk_in_one I T E data (Call p k) Hw pos Hl) as H. pose proof (in_one_well_behaved _ Hw) as Hi. rewrite Ht in H. destruct H as (pos' & -> & Hpos & H).
  destruct (Nat.eq_dec pos (length data)) as [->|Hne].
  - cbn [talk] in Ht. rewrite slice_end in Ht. discriminate.
  - pose proof (@slice_call I data (list T) E (in_one (Call p k)) pos Hi ltac:(lia)) as Hs. rewrite H in Hs. destruct Hs as (pos2 & Hp2 & Hb & ->).
    apply (f_equal (fun i => length (buf i))) in Hb. cbn [buf] in Hb. rewrite !skipn_length in Hb. replace pos2 with pos' by lia. reflexivity.
Qed.
Print Assumptions C67_success.

(** The same over a Source, whatever the pieces in which the data comes and whatever I/O errors there are, [Retry] and I/O errors being tried again: the
    programs get these answers, and the same answers in what they do next. *)
Theorem C67_source : forall St I B T E (ds : data_source St I) (ops : buffer_ops I B) fits b0 R s data e (p : parser I T E) k after fuel s' ts x,
  obeys ds -> delivers ds R -> R s data e -> lawful ops fits b0 -> fits 1 -> 2 * length data + e + 2 <= fuel ->
  each (fun p => forall rest, suits fits rest p) (Call p k) ->
  (forall b d n, in_one (Call p k) (mkInput false b) = Incomplete n -> fits (Nat.min (length b + n) (length (b ++ d)))) ->
  (forall s, ss_slice s = data -> script_suits fits s after) ->
  talk (Call p k) (slice_new data) = Done (s', ts, x) ->
  on_source ds ops fuel (one_by_one (Call p k) after) (src_with_buffer s b0) =
    (let! rs := on_slice after s' in Done (List.map (fun t => inl [t]) ts ++ match x with Some x => [forget (inr x)] | None => [] end ++ rs)) /\
  match x with
  | None => on_source ds ops fuel (at_once (Call p k) after) (src_with_buffer s b0) = let! rs := on_slice after s' in Done (inl ts :: rs)
  | Some (SParseError b y) =>
      on_source ds ops fuel (at_once (Call p k) after) (src_with_buffer s b0) = let! rs := on_slice after s' in Done (inr (SParseError [] y) :: rs)
  | Some (SIncomplete n) =>
      on_source ds ops fuel (at_once (Call p k) after) (src_with_buffer s b0) =
        let! rs := on_slice after (slice_new data) in Done (inr (SIncomplete (n + ss_pos s')) :: rs)
  | Some y => y = SEndOfInput
  end.
Proof.
  intros St I B T E ds ops fits b0 R s data e p k after fuel s' ts x Ho HR Hs L Hone Hfuel Hc Hfits Ha Ht.
  assert (Hw : each (@well_behaved I T E) (Call p k)) by (eapply each_impl; [|exact Hc]; intros q Hq; apply (Hq [])).
  split.
  - destruct (@C63_answers St I B (list T) E ds ops fits b0 R s data e (one_by_one (Call p k) after) fuel) as [H _]; try assumption.
    { eapply one_by_one_suits; [exact Hc|exact Ha|reflexivity]. }
    rewrite H, one_by_one_answers, Ht. reflexivity.
  - destruct (@C63_answers St I B (list T) E ds ops fits b0 R s data e (at_once (Call p k) after) fuel) as [H _]; try assumption.
    { apply ss_next; [apply in_one_suits; assumption|]. intros s2 r Hr. apply Ha. clear - Hr. unfold slice_parse in Hr.
      destruct (slice_is_empty _) as [[|]| | |]; cbn [run_bind] in Hr; try discriminate; [inversion Hr; reflexivity|].
      destruct (in_one _ _); try discriminate; destruct (slice_len _); cbn [run_bind] in Hr; try discriminate;
        [destruct (usize_sub _ _); cbn [run_bind] in Hr; try discriminate|destruct (usize_sub _ _); cbn [run_bind] in Hr; try discriminate|]; inversion Hr; reflexivity. }
    pose proof (@talk_in_one I T E data (Call p k) Hw 0 (Nat.le_0_l _)) as G. unfold slice_new in Ht. rewrite Ht in G. destruct G as (pos' & -> & Hpos & G).
    assert (Hd : x <> Some SEndOfInput -> 0 < length data).
    { intros Hx. destruct data as [|d l]; [|cbn; lia]. exfalso. apply Hx. cbn in Ht. inversion Ht. reflexivity. }
    pose proof (@slice_call I data (list T) E (in_one (Call p k)) 0 (in_one_well_behaved _ Hw)) as Hcall.
    destruct x as [[b y|n|n| |]|]; try (destruct G; fail); try reflexivity;
      specialize (Hcall (Hd ltac:(discriminate))); rewrite H; unfold at_once; cbn [on_slice]; unfold slice_new.
    + destruct G as [-> G]. rewrite G in Hcall. destruct Hcall as (pos2 & Hp2 & Hb & Hcall). rewrite Hcall. cbn [run_bind forget].
      apply (f_equal (@length I)) in Hb. rewrite !skipn_length in Hb. replace pos2 with pos' by lia. reflexivity.
    + destruct G as (m & -> & G). rewrite G in Hcall. rewrite Hcall. cbn [run_bind forget ss_pos]. replace (m + (length data - pos') + pos') with (m + (length data - 0)) by lia. reflexivity.
    + rewrite G in Hcall. destruct Hcall as (pos2 & Hp2 & Hb & Hcall). rewrite Hcall. cbn [run_bind forget].
      apply (f_equal (fun i => length (buf i))) in Hb. cbn [buf] in Hb. rewrite !skipn_length in Hb. replace pos2 with pos' by lia. reflexivity.
Qed.
Print Assumptions C67_source.

(** A parser which succeeds on nothing is not asked at the end of the data: the one call succeeds, the calls one by one do not. *)
Theorem C67_end_refuted : forall I (x d : I),
  let c := Call any (fun _ => Call (fun i => option_ any d i) (fun _ => Finish)) in
  each (@well_behaved I I (error I)) c /\
  slice_parse (in_one c) (slice_new [x]) = Done (mkSliceStream 1 [x], inl [x; d]) /\
  talk c (slice_new [x]) = Done (mkSliceStream 1 [x], [x], Some SEndOfInput).
Proof.
  intros I x d c.
  assert (Ha : well_behaved (@any I)).
  { intros [l [|y b]]; cbn; [lia|]. split; [reflexivity|]. exists [y]. reflexivity. }
  assert (Ho : well_behaved (fun i => option_ (@any I) d i)).
  { intros [[|] [|y b]]; cbn; try lia; (split; [reflexivity|]); [exists []|exists [y]|exists [y]]; reflexivity. }
  split; [|split; reflexivity]. cbn. split; [exact Ha|]. intros _. split; [exact Ho|auto].
Qed.
Print Assumptions C67_end_refuted.

(** The one call needs a buffer which holds all its data at once. *)
Definition C67_pairs : chain nat (list nat) (error nat) := Call (take 3) (fun _ => Call (take 3) (fun _ => Finish)).
Theorem C67_small_buffer_refuted : exists b0, fixed_with_size 4 = Done b0 /\
  on_source (read_data_source chunk_read) (fixed_ops nat) 20 (one_by_one C67_pairs SpecStream.Stop) (src_with_buffer [Some [1; 2; 3; 4; 5; 6]] b0) =
    Done [inl [[1; 2; 3]]; inl [[4; 5; 6]]] /\
  on_source (read_data_source chunk_read) (fixed_ops nat) 20 (at_once C67_pairs SpecStream.Stop) (src_with_buffer [Some [1; 2; 3; 4; 5; 6]] b0) =
    Done [inr (SIncomplete 6)].
Proof. eexists. split; [reflexivity|]. vm_compute. split; reflexivity. Qed.
Print Assumptions C67_small_buffer_refuted.

(** * Cases *)

(** A length in front, and then as many items. *)
Definition C67_lengths : chain nat (list nat) (error nat) :=
  Call (fun i => map (fun n => [n]) (satisfy true (fun n => n <? 9) i)) (fun l => Call (take (S (hd 0 l))) (fun _ => Call (take 1) (fun _ => Finish))).
Example C67_case : talk C67_lengths (slice_new [2; 5; 6; 7; 8; 9]) = Done (mkSliceStream 5 [2; 5; 6; 7; 8; 9], [[2]; [5; 6; 7]; [8]], None) /\
  slice_parse (in_one C67_lengths) (slice_new [2; 5; 6; 7; 8; 9]) = Done (mkSliceStream 5 [2; 5; 6; 7; 8; 9], inl [[2]; [5; 6; 7]; [8]]) /\
  (* not enough: the calls have consumed the length, the one call nothing *)
  talk C67_lengths (slice_new [2; 5; 6]) = Done (mkSliceStream 1 [2; 5; 6], [[2]], Some (SIncomplete 3)) /\
  slice_parse (in_one C67_lengths) (slice_new [2; 5; 6]) = Done (slice_new [2; 5; 6], inr (SIncomplete 4)) /\
  (* the data ends between two calls *)
  talk C67_lengths (slice_new [1; 5; 6]) = Done (mkSliceStream 3 [1; 5; 6], [[1]; [5; 6]], Some SEndOfInput) /\
  slice_parse (in_one C67_lengths) (slice_new [1; 5; 6]) = Done (slice_new [1; 5; 6], inr (SIncomplete 4)) /\
  talk C67_lengths (slice_new [9; 5; 6]) = Done (slice_new [9; 5; 6], [], Some (SParseError [9; 5; 6] Unexpected)).
Proof. repeat split. Qed.
Lemma C67_lengths_suit : each (fun p => forall rest, suits (fun _ => True) rest p) C67_lengths.
Proof.
  assert (Ht : forall n rest, suits (fun _ => True) rest (@take nat (S n))).
  { intros n rest. apply C31_safe_suits; auto; [apply s_take|intros [l b]; unfold take; cbn [buf]; destruct (S n <=? length b); discriminate|].
    intros _. exists (S n). reflexivity. }
  split; [|intros t; split; [intros rest; apply Ht|intros t'; split; [intros rest; apply Ht|intros _; exact Logic.I]]].
  intros rest. apply C31_safe_suits; auto.
  - apply s_map, s_satisfy.
  - intros [l [|x b]]; unfold satisfy; cbn -[Nat.ltb]; try discriminate. destruct (x <? 9); discriminate.
  - intros _. exists 1. reflexivity.
Qed.
Example C67_case_slice : each (fun p => well_behaved p /\ fails_on p (mkInput true [])) C67_lengths.
Proof.
  pose proof C67_lengths_suit as H. destruct H as [H1 H2].
  split; [split; [apply (H1 [])|right; exists 1; reflexivity]|]. intros l. destruct (H2 l) as [H3 H4].
  split; [split; [apply (H3 [])|right; eexists; reflexivity]|]. intros l'. destruct (H4 l') as [H5 _].
  split; [split; [apply (H5 [])|right; exists 1; reflexivity]|]. intros l2. exact Logic.I.
Qed.
(** The hypotheses for a Source: any pieces and faults, over the unlimited buffer; what comes afterwards is another round. *)
Example C67_case_source : forall cs s' ts, ~ In (Some []) cs -> talk C67_lengths (slice_new (chunks_data cs)) = Done (s', ts, None) ->
  let again := one_by_one C67_lengths SpecStream.Stop in
  let source c := on_source (read_data_source chunk_read) (growing_ops nat) (2 * length (chunks_data cs) + chunks_errors cs + 2) c (src_with_buffer cs (growing_with_limit 0 (fun n => n) 0)) in
  source (one_by_one C67_lengths again) = (let! rs := on_slice again s' in Done (List.map (fun t => inl [t]) ts ++ rs)) /\
  source (at_once C67_lengths again) = (let! rs := on_slice again s' in Done (inl ts :: rs)).
Proof.
  intros cs s' ts Hcs Ht again source. unfold source, C67_lengths.
  eapply C67_source with (fits := fun _ => True) (R := schedule) (x := None); eauto using chunk_obeys, chunk_delivers.
  - split; [assumption|split; reflexivity].
  - apply tight_lawful. apply C63_growing.
  - exact C67_lengths_suit.
  - intros s Hs. eapply one_by_one_suits; [exact C67_lengths_suit| |exact Hs]. intros s2 _. apply ss_stop.
Qed.
