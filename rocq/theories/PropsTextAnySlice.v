(** C90, for SliceStream: what the program text does with any parser, also with one that hands back what it was not given. *)
From Coq Require Import List Bool Arith String Lia.
From Verif Require Import Base Combinators Buffer Stream Rust RustText BufferText TextModel BufferTextModel SpecBuffer SpecSafe SpecStream
  BufferProofs StreamProofs SimProofs PropsStream PropsStreamText SpecTextHistory TextHistoryProofs SpecTextAny TextAnyProofs.
Import ListNotations.

Set Implicit Arguments.
Local Open Scope string_scope.
Local Open Scope list_scope.
Local Open Scope nat_scope.

Section C90Slice.
  Context {St B0 T E I : Type}.
  Notation thing := (stream_thing St B0 T E).
  Notation value := (value I thing).
  Variable verbose : bool.
  Variable eqb : I -> I -> bool.
  Variable ds : data_source St I.
  Variable next : St -> option I * St.
  Variable ops0 : buffer_ops I B0.
  Variable cap0 : nat.
  Variable extra alloc : nat -> nat.
  Variable starts : thing.
  Variable acts : thing -> caction value value thing.
  Notation text := (@text St B0 T E I verbose eqb ds next ops0 cap0 extra alloc starts acts).
  Notation text_slice_states := (@text_slice_states St B0 T E I verbose eqb ds next ops0 cap0 extra alloc starts acts).

  (** Where a SliceStream can stand. *)
  Let sound (data : list I) (s : slice_stream I) : Prop := ss_slice s = data /\ ss_pos s <= List.length data.

  Lemma sound_len data s : sound data s -> slice_len s = Done (List.length (skipn (ss_pos s) data)).
  Proof. intros [K1 K2]. unfold slice_len. rewrite K1, usize_sub_ok by assumption. rewrite skipn_length. reflexivity. Qed.
  (** The stream after the parser has handed back so many items. *)
  Let after (data : list I) (s : slice_stream I) (n : nat) : slice_stream I := mkSliceStream (ss_pos s + (List.length (skipn (ss_pos s) data) - n)) data.
  Lemma after_sound data s n : sound data s -> sound data (after data s n) /\
    (n <= List.length (skipn (ss_pos s) data) -> skipn (ss_pos (after data s n)) data = skipn (List.length (skipn (ss_pos s) data) - n) (skipn (ss_pos s) data)).
  Proof.
    intros [K1 K2]. unfold after, sound. cbn [ss_slice ss_pos]. rewrite skipn_length in *. repeat split; [lia|]. intros _. rewrite skipn_skipn. f_equal. lia.
  Qed.
  Lemma any_slice_parse data s (p : parser I T E) : sound data s ->
    slice_parse p s =
    match skipn (ss_pos s) data with
    | [] => Done (s, inr SEndOfInput)
    | y :: l => match p (mkInput true (y :: l)) with
              | Data j x => if List.length (buf j) <=? List.length (y :: l) then Done (after data s (List.length (buf j)), inl x) else Panicked
              | Error b x => if List.length b <=? List.length (y :: l) then Done (after data s (List.length b), inr (SParseError b x)) else Panicked
              | Incomplete n => Done (s, inr (SIncomplete (n + List.length (y :: l))))
              | Panic => Panicked
              | NoFuel => Stuck
              end
    end.
  Proof.
    intros H. unfold slice_parse, slice_is_empty. rewrite (sound_len H). cbn [run_bind]. destruct H as [K1 K2]. rewrite K1. unfold after.
    destruct (skipn (ss_pos s) data) as [|x l]; [reflexivity|]. cbn [List.length Nat.eqb].
    destruct (p (mkInput true (x :: l))) as [j v|b e|n| |]; try reflexivity; cbn [run_bind]; unfold usize_sub; destruct (_ <=? _); reflexivity.
  Qed.
  Lemma text_slice_states_sound data v : text_slice_states data v -> exists s, v = w_slices s /\ sound data s.
  Proof.
    intros H. induction H as [p v H|p v H|v p r v' H (s & -> & IH) Hf Hc].
    - destruct (comes_to_model H (C88_slice_new _ _ _ _ _ _ _ _ _ _ _ _)) as (s & H1 & H2 & _); [discriminate|]. inversion H1; subst s.
      exists (slice_new data). split; [exact H2|]. split; [reflexivity|cbn; lia].
    - destruct (comes_to_model H (C88_into_stream _ _ _ _ _ _ _ _ _ _ _ _)) as (s & H1 & H2 & _); [discriminate|]. inversion H1; subst s.
      exists (slice_new data). split; [exact H2|]. split; [reflexivity|cbn; lia].
    - assert (HS : slice_parse p s <> Stuck).
      { rewrite (any_slice_parse p IH). destruct (skipn _ _) as [|x l]; [discriminate|]. destruct (p (mkInput true (x :: l))) as [j w|b e|n| |] eqn:Ep; [destruct (List.length (buf j) <=? _); discriminate|destruct (List.length b <=? _); discriminate|discriminate|discriminate|].
        exfalso. exact (Hf _ Ep). }
      destruct (comes_to_model Hc (C88_slice_parse _ _ _ _ _ _ _ _ _ _ _ _ HS) HS) as ([s2 o2] & G1 & _ & G3). cbn [fst] in G3. inversion G3. exists s2. split; [reflexivity|].
      rewrite (any_slice_parse p IH) in G1. destruct (skipn _ _) as [|x l] eqn:El; [inversion G1; subst; exact IH|]. destruct (p (mkInput true (x :: l))) as [j w|b e|n| |]; try discriminate.
      + destruct (_ <=? _); inversion G1. apply after_sound. exact IH.
      + destruct (_ <=? _); inversion G1. apply after_sound. exact IH.
      + inversion G1; subst; exact IH.
  Qed.

  (** [rest] is what is left.  The parser is given all of it, and the number of the items it hands back is the number left over; it panics when that is
      more than there was. *)
  Theorem C90_slice data v : text_slice_states data v ->
    exists gone rest, data = gone ++ rest /\
      (forall p, comes_to (text p "SliceStream" "len" [VRef 0 []] [v]) (VNat (List.length rest)) [v]) /\
      forall p, let parse := text p "SliceStream" "parse" [VRef 0 []; VObj KParser] [v] in
        let leaves n out := if n <=? List.length rest
          then exists v', comes_to parse (w_sres w_kvalue w_kerr out) [v'] /\
            forall q, comes_to (text q "SliceStream" "len" [VRef 0 []] [v']) (VNat n) [v']
          else panics parse in
        (rest = [] -> comes_to parse (w_sres w_kvalue w_kerr (inr SEndOfInput)) [v]) /\
        (rest <> [] -> match p (mkInput true rest) with
                       | Data j x => leaves (List.length (buf j)) (inl x)
                       | Error b x => leaves (List.length b) (inr (SParseError b x))
                       | Incomplete n => comes_to parse (w_sres w_kvalue w_kerr (inr (SIncomplete (n + List.length rest)))) [v]
                       | Panic => panics parse
                       | NoFuel => True
                       end).
  Proof.
    intros H. destruct (text_slice_states_sound H) as (s & -> & HS). exists (firstn (ss_pos s) data), (skipn (ss_pos s) data). split; [symmetry; apply firstn_skipn|].
    split; [intros p; exact (model_comes_to (C88_slice_len _ _ _ _ _ _ _ _ _ _ _ s) (sound_len HS))|].
    intros p. cbv zeta. pose proof (any_slice_parse p HS) as Hm.
    assert (done : forall s' o, slice_parse p s = Done (s', o) ->
      comes_to (text p "SliceStream" "parse" [VRef 0 []; VObj KParser] [w_slices s]) (w_sres w_kvalue w_kerr o) [w_slices s']).
    { intros s' o G. assert (HT : slice_parse p s <> Stuck) by (rewrite G; discriminate). exact (model_comes_to (C88_slice_parse _ _ _ _ _ _ _ _ _ _ _ _ HT) G). }
    assert (bad : slice_parse p s = Panicked -> panics (text p "SliceStream" "parse" [VRef 0 []; VObj KParser] [w_slices s])).
    { intros G. assert (HT : slice_parse p s <> Stuck) by (rewrite G; discriminate).
      pose proof (C88_slice_parse verbose eqb ds next ops0 p cap0 extra alloc starts acts s HT) as K. rewrite G in K. exact (model_panics K). }
    assert (left : forall n, n <= List.length (skipn (ss_pos s) data) -> forall q, comes_to (text q "SliceStream" "len" [VRef 0 []] [w_slices (after data s n)]) (VNat n) [w_slices (after data s n)]).
    { intros n Hn q. destruct (after_sound n HS) as [K1 K2]. pose proof (sound_len K1) as K3. rewrite (K2 Hn), skipn_length in K3.
      replace (List.length (skipn (ss_pos s) data) - (List.length (skipn (ss_pos s) data) - n)) with n in K3 by lia.
      exact (model_comes_to (C88_slice_len _ _ _ _ _ _ _ _ _ _ _ _) K3). }
    destruct (skipn (ss_pos s) data) as [|x l]; (split; intros Hr; [try discriminate|try congruence]).
    - apply done. exact Hm.
    - destruct (p (mkInput true (x :: l))) as [j w|b e|n| |].
      + destruct (Nat.leb_spec (List.length (buf j)) (List.length (x :: l))) as [Hn|Hn]; [exists (w_slices (after data s (List.length (buf j)))); split; [apply done; exact Hm|apply left; exact Hn]|apply bad; exact Hm].
      + destruct (Nat.leb_spec (List.length b) (List.length (x :: l))) as [Hn|Hn]; [exists (w_slices (after data s (List.length b))); split; [apply done; exact Hm|apply left; exact Hn]|apply bad; exact Hm].
      + apply done. exact Hm.
      + apply bad. exact Hm.
      + exact Logic.I.
  Qed.
End C90Slice.
Print Assumptions C90_slice.

(** A parser that hands back one item it was not given: the stream over [1; 2; 3] is then at its last item; one that hands back four makes it panic. *)
Example C90_slice_case :
  let forger : parser nat nat nat := fun i => Data (mkInput (last i) [77]) 0 in
  let hoarder : parser nat nat nat := fun i => Error [4; 5; 6; 7] 0 in
  let say := @text (list nat) (growing nat) nat nat nat true Nat.eqb (iter_data_source (fun s => (None, s))) (fun s => (None, s)) (growing_ops nat) 0 (fun _ => 0) (fun _ => 1) KParser no_acts in
  exists v v', @text_slice_states (list nat) (growing nat) nat nat nat true Nat.eqb (iter_data_source (fun s => (None, s))) (fun s => (None, s)) (growing_ops nat) 0
    (fun _ => 0) (fun _ => 1) KParser no_acts [1; 2; 3] v /\ comes_to (say forger "SliceStream" "parse" [VRef 0 []; VObj KParser] [v]) (w_sres w_kvalue w_kerr (inl 0)) [v'] /\
    comes_to (say forger "SliceStream" "len" [VRef 0 []] [v']) (VNat 1) [v'] /\ panics (say hoarder "SliceStream" "parse" [VRef 0 []; VObj KParser] [v]).
Proof.
  intros forger hoarder say. exists (w_slices (slice_new [1; 2; 3])), (w_slices (mkSliceStream 2 [1; 2; 3])).
  assert (H : slice_parse forger (slice_new [1; 2; 3]) <> Stuck) by discriminate. assert (H2 : slice_parse hoarder (slice_new [1; 2; 3]) <> Stuck) by discriminate.
  split; [eapply (as_new (p := forger)); exact (model_comes_to (C88_slice_new _ _ _ _ _ _ _ _ _ _ _ _) eq_refl)|].
  split; [exact (model_comes_to (C88_slice_parse _ _ _ _ _ _ _ _ _ _ _ _ H) (a := (mkSliceStream 2 [1; 2; 3], inl 0)) eq_refl)|].
  split; [exact (model_comes_to (C88_slice_len _ _ _ _ _ _ _ _ _ _ _ (mkSliceStream 2 [1; 2; 3])) (a := 1) eq_refl)|].
  exact (model_panics (C88_slice_parse _ _ _ _ _ _ _ _ _ _ _ _ H2)).
Qed.
