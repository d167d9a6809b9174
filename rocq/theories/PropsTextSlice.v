(** C89, for SliceStream: whatever is parsed from a slice, the program text does not go wrong, and stands where the parsers have left it. *)
From Coq Require Import List Bool Arith String Lia.
From Verif Require Import Base Combinators Buffer Stream Rust RustText BufferText TextModel BufferTextModel SpecBuffer SpecSafe SpecStream
  BufferProofs StreamProofs SimProofs HistoryProofs PropsStream PropsStreamText SpecTextHistory TextHistoryProofs.
Import ListNotations.

Set Implicit Arguments.
Local Open Scope string_scope.
Local Open Scope list_scope.
Local Open Scope nat_scope.

(** What the parser tells is what it took. *)
Lemma ran_told {I T E : Type} (p : parser I T E) last d out rest : well_behaved p -> ran (telling p) last d out rest -> d = told out ++ rest.
Proof.
  intros Hw H. specialize (Hw (mkInput last d)). unfold ran, telling in H. destruct (p (mkInput last d)) as [j v|b e|n| |] eqn:Ep; cbn [buf] in *; try contradiction.
  - destruct H as [-> ->]. cbn [told]. destruct Hw as [_ [c Hc]]. cbn [buf] in Hc. subst d. rewrite app_length, Nat.add_sub, firstn_app, Nat.sub_diag, firstn_all, firstn_O, app_nil_r. reflexivity.
  - destruct H as [-> ->]. cbn [told]. destruct Hw as [c Hc]. cbn [buf] in Hc. subst d. rewrite app_length, Nat.add_sub, firstn_app, Nat.sub_diag, firstn_all, firstn_O, app_nil_r. reflexivity.
  - destruct H as [-> ->]. destruct last; reflexivity.
Qed.

Section C89Slice.
  Context {St B0 T E I : Type}.
  Notation thing := (stream_thing St B0 (list I * T) (list I * E)).
  Notation value := (value I thing).
  Variable verbose : bool.
  Variable eqb : I -> I -> bool.
  Variable ds : data_source St I.
  Variable next : St -> option I * St.
  Variable ops0 : buffer_ops I B0.
  Variable cap0 : nat.
  Variable extra alloc : nat -> nat.
  Variable starts : thing.
  Variable acts : thing -> caction value value thing.
  Notation text := (@text St B0 (list I * T) (list I * E) I verbose eqb ds next ops0 cap0 extra alloc starts acts).
  Notation text_slices := (@text_slices St B0 T E I verbose eqb ds next ops0 cap0 extra alloc starts acts).

  Lemma slice_step data s gone (p : parser I T E) s' out : slice_reached data s -> data = gone ++ skipn (ss_pos s) data -> well_behaved p ->
    slice_parse (telling p) s = Done (s', out) -> slice_reached data s' /\ data = (gone ++ told out) ++ skipn (ss_pos s') data.
  Proof.
    intros H Hd Hw Hm. split; [eapply sl_parse; [exact H|apply telling_well_behaved; exact Hw|exact Hm]|].
    destruct (C34_slice _ _ _ _ _ _ _ _ H (telling_well_behaved Hw) Hm) as (_ & _ & _ & [(_ & -> & ->)|(_ & Hr)]); [cbn [told]; rewrite app_nil_r; exact Hd|].
    rewrite <- app_assoc, <- (ran_told _ _ _ _ Hw Hr). exact Hd.
  Qed.
  Lemma text_slices_stand data v gone : text_slices data v gone ->
    exists s, v = w_slices s /\ slice_reached data s /\ data = gone ++ skipn (ss_pos s) data.
  Proof.
    intros H. induction H as [p v H|p v H|v gone p r v' H (s & -> & IH1 & IH2) Hu Hc].
    - destruct (comes_to_model H (C88_slice_new _ _ _ _ _ _ _ _ _ _ _ _)) as (s & H1 & H2 & _); [discriminate|]. inversion H1; subst s.
      exists (slice_new data). split; [exact H2|]. split; [apply sl_new|reflexivity].
    - destruct (comes_to_model H (C88_into_stream _ _ _ _ _ _ _ _ _ _ _ _)) as (s & H1 & H2 & _); [discriminate|]. inversion H1; subst s.
      exists (slice_new data). split; [exact H2|]. split; [apply sl_new|reflexivity].
    - destruct (telling_usable Hu) as [Hp Hf]. destruct Hu as [Hw _].
      destruct (C34_slice_answers _ _ _ _ _ (telling p) IH1 (telling_well_behaved Hw) Hp Hf) as (s' & out & Hm).
      assert (HS : slice_parse (telling p) s <> Stuck) by (rewrite Hm; discriminate).
      destruct (comes_to_model Hc (C88_slice_parse _ _ _ _ _ _ _ _ _ _ _ _ HS) HS) as ([s2 o2] & G1 & G2 & G3). rewrite Hm in G1. inversion G1; subst s2 o2.
      cbn [fst snd] in G2, G3. inversion G3. subst r. rewrite told_handed. exists s'. split; [reflexivity|]. exact (slice_step _ IH1 IH2 Hw Hm).
  Qed.

  Theorem C89_slice data v gone : text_slices data v gone ->
    exists rest, data = gone ++ rest /\
      (forall p, comes_to (text p "SliceStream" "len" [VRef 0 []] [v]) (VNat (List.length rest)) [v]) /\
      (forall p, comes_to (text p "SliceStream" "is_empty" [VRef 0 []] [v]) (VBool (List.length rest =? 0)) [v]) /\
      forall p, usable p -> exists out v' rest', comes_to (text (telling p) "SliceStream" "parse" [VRef 0 []; VObj KParser] [v]) (w_sres w_kvalue w_kerr out) [v'] /\
        (forall q, comes_to (text q "SliceStream" "len" [VRef 0 []] [v']) (VNat (List.length rest')) [v']) /\ rest = told out ++ rest' /\
        (rest = [] /\ out = inr SEndOfInput \/ rest <> [] /\ ran (telling p) true rest out rest').
  Proof.
    intros H. destruct (text_slices_stand H) as (s & -> & H1 & H2).
    assert (HL : forall s, slice_reached data s -> slice_len s = Done (List.length (skipn (ss_pos s) data))).
    { intros s1 K. destruct (slice_inv _ _ _ K) as (K1 & K2). unfold slice_len. rewrite K1, usize_sub_ok by assumption. rewrite skipn_length. reflexivity. }
    exists (skipn (ss_pos s) data). split; [exact H2|].
    split; [intros p; exact (model_comes_to (C88_slice_len _ _ _ _ _ _ _ _ _ _ _ s) (HL s H1))|].
    split. { intros p. eapply (model_comes_to (C88_slice_is_empty _ _ _ _ _ _ _ _ _ _ _ s)). unfold slice_is_empty. rewrite (HL s H1). reflexivity. }
    intros p Hu. destruct (telling_usable Hu) as [Hp Hf]. destruct Hu as [Hw _].
    destruct (C34_slice_answers _ _ _ _ _ (telling p) H1 (telling_well_behaved Hw) Hp Hf) as (s' & out & Hm).
    assert (HS : slice_parse (telling p) s <> Stuck) by (rewrite Hm; discriminate).
    destruct (slice_step _ H1 H2 Hw Hm) as [G1 G2].
    exists out, (w_slices s'), (skipn (ss_pos s') data). split; [exact (model_comes_to (C88_slice_parse _ _ _ _ _ _ _ _ _ _ _ _ HS) Hm)|].
    split; [intros q; exact (model_comes_to (C88_slice_len _ _ _ _ _ _ _ _ _ _ _ s') (HL s' G1))|].
    split. { rewrite <- app_assoc in G2. rewrite H2 in G2 at 1. exact (app_inv_head _ _ _ G2). }
    destruct (C34_slice _ _ _ _ _ _ _ _ H1 (telling_well_behaved Hw) Hm) as (_ & _ & _ & [(K1 & K2 & _)|K]); auto.
  Qed.
End C89Slice.
Print Assumptions C89_slice.

(** A parser that takes three items; from a slice of five it takes three, and then asks for more. *)
Section C89SliceCase.
  Let three : parser nat nat nat :=
    fun i => match buf i with
             | x :: y :: z :: b => Data (mkInput (last i) b) (x + y + z)
             | b => Incomplete (3 - List.length b)
             end.
  Let none : data_source unit nat := mkDataSource (fun s n => (s, [], IoOk 0)).
  Example C89_slice_usable : usable three.
  Proof.
    split; [|split]; intros [l [|x [|y [|z b]]]]; cbn; try discriminate; try lia. split; [reflexivity|]. exists [x; y; z]. reflexivity.
  Qed.
  Example C89_slice_case : exists v, @text_slices unit unit nat nat nat true Nat.eqb none (fun s => (None, s))
    (mkBufferOps (fun _ => Done []) (fun _ _ b s => Done (b, s, IoOk 0)) (fun b _ => Done b) (fun b _ => Done b) (fun _ => Done 0) (fun _ => 0))
    0 (fun _ => 0) (fun _ => 1) KParser no_acts [1; 2; 3; 4; 5] v [1; 2; 3].
  Proof.
    eexists. change [1; 2; 3] with (([] ++ handed (I := nat) (w_sres (O := stream_thing unit unit (list nat * nat) (list nat * nat)) w_kvalue w_kerr (inl ([1; 2; 3], 6)))) ++
      handed (w_sres (O := stream_thing unit unit (list nat * nat) (list nat * nat)) w_kvalue w_kerr (inr (SIncomplete 3)))).
    eapply (ts_parse (p := three)); [eapply (ts_parse (p := three)); [apply (ts_new (p := telling three))|..]|..].
    - exact (model_comes_to (C88_slice_new _ _ _ _ _ _ _ _ _ _ _ _) eq_refl).
    - exact C89_slice_usable.
    - exact (model_comes_to (C88_slice_parse _ _ _ _ _ (telling three) _ _ _ _ _ (slice_new [1; 2; 3; 4; 5]) ltac:(vm_compute; discriminate))
               (a := (mkSliceStream 3 [1; 2; 3; 4; 5], inl ([1; 2; 3], 6))) eq_refl).
    - exact C89_slice_usable.
    - exact (model_comes_to (C88_slice_parse _ _ _ _ _ (telling three) _ _ _ _ _ (mkSliceStream 3 [1; 2; 3; 4; 5]) ltac:(vm_compute; discriminate))
               (a := (mkSliceStream 3 [1; 2; 3; 4; 5], inr (SIncomplete 3))) eq_refl).
  Qed.
End C89SliceCase.
