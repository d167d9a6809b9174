(** Proofs for property C67. *)
From Coq Require Import List Bool Arith Lia.
From Verif Require Import Base Parsers Combinators Buffer Stream SpecBase SpecSafe SpecStream SpecLoop SpecChain BufferProofs SafeProofs StableProofs.
Import ListNotations.

Set Implicit Arguments.

Section Slice.
  Context {I T E : Type}.
  Variable data : list I.
  Notation at_ pos := (mkInput true (skipn pos data)).
  Notation from pos := (mkSliceStream pos data).

  Lemma suffix_skip : forall pos b, pos <= length data -> suffix b (skipn pos data) -> exists pos', pos <= pos' /\ pos' <= length data /\ b = skipn pos' data /\ length b = length data - pos'.
  Proof.
    intros pos b Hl [pre Hs]. pose proof (f_equal (@length I) Hs) as Hlen. rewrite skipn_length, app_length in Hlen.
    exists (length pre + pos). repeat split; try lia. rewrite <- skipn_skipn, Hs, skipn_app, skipn_all, Nat.sub_diag. reflexivity.
  Qed.

  (** One call on the slice. *)
  Lemma slice_call : forall U F (p : parser I U F) pos, well_behaved p -> pos < length data ->
    match p (at_ pos) with
    | Data j v => exists pos', pos <= pos' <= length data /\ j = at_ pos' /\ slice_parse p (from pos) = Done (from pos', inl v)
    | Error b e => exists pos', pos <= pos' <= length data /\ b = skipn pos' data /\ slice_parse p (from pos) = Done (from pos', inr (SParseError b e))
    | Incomplete n => slice_parse p (from pos) = Done (from pos, inr (SIncomplete (n + (length data - pos))))
    | Panic => slice_parse p (from pos) = Panicked
    | NoFuel => slice_parse p (from pos) = Stuck
    end.
  Proof.
    intros U F p pos Hp Hl. pose proof (Hp (at_ pos)) as Hh. unfold slice_parse, slice_is_empty, slice_len, usize_sub. cbn [ss_pos ss_slice].
    destruct (Nat.leb_spec pos (length data)) as [_|]; [|lia]. cbn [run_bind]. destruct (Nat.eqb_spec (length data - pos) 0) as [|_]; [lia|].
    destruct (p (at_ pos)) as [j v|b e|n| |]; cbn [honest buf last] in Hh; try reflexivity.
    - destruct Hh as [Hm Hs]. destruct (@suffix_skip pos (buf j)) as (pos' & H1 & H2 & H3 & H4); [lia|assumption|]. exists pos'.
      cbn [run_bind]. rewrite H4. destruct (Nat.leb_spec (length data - pos') (length data - pos)) as [_|]; [|lia]. cbn [run_bind].
      split; [lia|]. split; [destruct j as [l b]; cbn in *; congruence|]. do 3 f_equal. lia.
    - destruct (@suffix_skip pos b) as (pos' & H1 & H2 & H3 & H4); [lia|assumption|]. exists pos'.
      cbn [run_bind]. rewrite H4. destruct (Nat.leb_spec (length data - pos') (length data - pos)) as [_|]; [|lia]. cbn [run_bind].
      split; [lia|]. split; [assumption|]. do 3 f_equal. lia.
  Qed.
  Lemma slice_end : forall U F (p : parser I U F), slice_parse p (from (length data)) = Done (from (length data), inr SEndOfInput).
  Proof.
    intros U F p. unfold slice_parse, slice_is_empty, slice_len, usize_sub. cbn [ss_pos ss_slice]. rewrite Nat.leb_refl, Nat.sub_diag. reflexivity.
  Qed.

  (** What the combined parser does is what the calls do. *)
  Lemma talk_in_one : forall c : chain I T E, each (@well_behaved I T E) c -> forall pos, pos <= length data ->
    match talk c (from pos) with
    | Done (s', ts, e) => exists pos', s' = from pos' /\ pos <= pos' <= length data /\
        match e with
        | None => in_one c (at_ pos) = Data (at_ pos') ts
        | Some (SParseError b x) => b = skipn pos' data /\ in_one c (at_ pos) = Error b x
        | Some (SIncomplete n) => exists m, n = m + (length data - pos') /\ in_one c (at_ pos) = Incomplete m
        | Some SEndOfInput => pos' = length data /\ exists p, turn c ts = Some p /\
            match p (mkInput true []) with
            | Error b x => in_one c (at_ pos) = Error [] x
            | Incomplete n => in_one c (at_ pos) = Incomplete n
            | Panic => in_one c (at_ pos) = Panic
            | NoFuel => in_one c (at_ pos) = NoFuel
            | Data _ _ => True
            end
        | Some SRetry => False
        | Some (SIoError _) => False
        end
    | Panicked => in_one c (at_ pos) = Panic
    | Stuck => in_one c (at_ pos) = NoFuel
    | Undefined => False
    end.
  Proof.
    induction c as [|p k IH]; intros Hc pos Hl.
    - cbn [talk in_one]. exists pos. repeat split; try lia.
    - cbn [each] in Hc. destruct Hc as [Hp Hk]. cbn [talk in_one].
      destruct (Nat.eq_dec pos (length data)) as [->|Hne].
      + rewrite slice_end. cbn [run_bind]. exists (length data). split; [reflexivity|]. split; [lia|]. split; [reflexivity|]. exists p. split; [reflexivity|].
        rewrite skipn_all. pose proof (Hp (mkInput true [])) as Hh. destruct (p (mkInput true [])) as [j v|b e|n| |]; cbn [bind]; auto.
        cbn in Hh. destruct Hh as [pre Hh]. symmetry in Hh. apply app_eq_nil in Hh. destruct Hh as [_ ->]. reflexivity.
      + pose proof (@slice_call T E p pos Hp ltac:(lia)) as H. destruct (p (at_ pos)) as [j v|b e|n| |] eqn:Hpp.
        * destruct H as (pos1 & Hpos & -> & ->). cbn [run_bind bind]. specialize (IH v (Hk v) pos1 ltac:(lia)).
          destruct (talk (k v) (from pos1)) as [[[s' ts] e]| | |] eqn:Ht; cbn [run_bind].
          -- destruct IH as (pos' & -> & Hpos' & H). exists pos'. split; [reflexivity|]. split; [lia|].
             destruct e as [[b x|n|n| |]|]; cbn [turn].
             ++ destruct H as [-> H]. split; [reflexivity|]. rewrite H. reflexivity.
             ++ destruct H as (m & -> & H). exists m. split; [reflexivity|]. rewrite H. reflexivity.
             ++ exact H.
             ++ destruct H as [-> (q & Hq & H)]. split; [reflexivity|]. exists q. split; [assumption|]. destruct (q (mkInput true [])); [exact Logic.I| | | |]; rewrite H; reflexivity.
             ++ exact H.
             ++ rewrite H. reflexivity.
          -- rewrite IH. reflexivity.
          -- exact IH.
          -- rewrite IH. reflexivity.
        * destruct H as (pos1 & Hpos & -> & ->). cbn [run_bind bind]. exists pos1. repeat split; try lia.
        * rewrite H. cbn [run_bind bind]. exists pos. repeat split; try lia. exists n. split; reflexivity.
        * rewrite H. reflexivity.
        * rewrite H. reflexivity.
  Qed.
End Slice.

Lemma each_impl : forall I T E (P Q : parser I T E -> Prop) c, (forall p, P p -> Q p) -> each P c -> each Q c.
Proof. intros I T E P Q c H. induction c as [|p k IH]; cbn [each]; [auto|]. intros [H1 H2]. split; auto. Qed.

Lemma honest_map : forall I T U E (i : input I) (r : pres I T E) (f : T -> U), honest i r -> honest i (map f r).
Proof. intros I T U E i r f H. destruct r; exact H. Qed.
Lemma in_one_well_behaved : forall I T E (c : chain I T E), each (@well_behaved I T E) c -> well_behaved (in_one c).
Proof.
  intros I T E c. induction c as [|p k IH]; cbn [each]; intros Hc i; cbn [in_one].
  - cbn. split; [reflexivity|]. exists []. reflexivity.
  - destruct Hc as [Hp Hk]. apply honest_bind; [apply Hp|]. intros j t. apply honest_map. apply IH, Hk.
Qed.
Lemma in_one_stable : forall I T E (c : chain I T E), each (fun p => stable p /\ well_behaved p) c -> stable (in_one c).
Proof.
  intros I T E c. induction c as [|p k IH]; cbn [each]; intros Hc b l d; cbn [in_one].
  - reflexivity.
  - destruct Hc as [[Hs Hw] Hk]. pose proof (Hs b l d) as H. pose proof (Hw (mkInput false b)) as Hh. destruct (p (mkInput false b)) as [j t|r e|n| |]; cbn [upholds bind] in *.
    + rewrite H. cbn [bind]. destruct Hh as [Hm _]. destruct j as [lj bj]. cbn [buf last] in *. subst lj. pose proof (IH t (Hk t) bj l d) as H1.
      destruct (in_one (k t) (mkInput false bj)) as [j' v|r e|n| |]; cbn [upholds map] in *; try (rewrite H1; reflexivity); [|exact Logic.I].
      intros Hl Hd. destruct (H1 Hl Hd) as [m ->]. exists m. reflexivity.
    + rewrite H. reflexivity.
    + intros Hl Hd. destruct (H Hl Hd) as [m ->]. exists m. reflexivity.
    + rewrite H. reflexivity.
    + exact Logic.I.
Qed.
Lemma in_one_decides : forall I T E (c : chain I T E), each (fun p => forall i, p i <> NoFuel) c -> forall i, in_one c i <> NoFuel.
Proof.
  intros I T E c. induction c as [|p k IH]; cbn [each]; intros Hc i; cbn [in_one]; [discriminate|]. destruct Hc as [Hp Hk]. pose proof (Hp i) as H.
  destruct (p i) as [j t|r e|n| |]; cbn [bind]; try discriminate; [|congruence]. pose proof (IH t (Hk t) j) as H1. destruct (in_one (k t) j); cbn [map]; try discriminate. exfalso. apply H1. reflexivity.
Qed.

Section Suits.
  Context {I T E : Type}.
  Variable fits : nat -> Prop.
  Lemma in_one_suits : forall (p : parser I T E) k, each (fun p => forall rest, suits fits rest p) (Call p k) ->
    (forall b d n, in_one (Call p k) (mkInput false b) = Incomplete n -> fits (Nat.min (length b + n) (length (b ++ d)))) ->
    forall rest, suits fits rest (in_one (Call p k)).
  Proof.
    intros p k Hc Hf rest. constructor.
    - apply in_one_stable. eapply each_impl; [|exact Hc]. intros q Hq. split; apply (Hq []).
    - apply in_one_well_behaved. eapply each_impl; [|exact Hc]. intros q Hq. apply (Hq []).
    - apply in_one_decides. eapply each_impl; [|exact Hc]. intros q Hq. apply (Hq []).
    - intros ->. destruct Hc as [Hp _]. destruct (su_needs_input (Hp []) eq_refl) as [n Hn]. exists n. cbn [in_one]. rewrite Hn. reflexivity.
    - intros b d n -> H. eapply Hf; eassumption.
  Qed.
  Lemma single_suits : forall (p : parser I T E) rest, suits fits rest p -> suits fits rest (fun i => map (fun t => [t]) (p i)).
  Proof.
    intros p rest [H1 H2 H3 H4 H5]. constructor.
    - intros b l d. pose proof (H1 b l d) as H. destruct (p (mkInput false b)) as [j t|r e|n| |]; cbn [upholds map] in *; try (rewrite H; reflexivity); [|exact Logic.I].
      intros Hl Hd. destruct (H Hl Hd) as [m ->]. exists m. reflexivity.
    - intros i. apply honest_map, H2.
    - intros i. pose proof (H3 i). destruct (p i); cbn [map]; congruence.
    - intros Hr. destruct (H4 Hr) as [n Hn]. exists n. rewrite Hn. reflexivity.
    - intros b c n Hr H. eapply H5; [eassumption|]. destruct (p (mkInput false b)); cbn [map] in H; congruence.
  Qed.
  Lemma one_by_one_suits : forall c : chain I T E, each (fun p => forall rest, suits fits rest p) c -> forall after data, (forall s, ss_slice s = data -> script_suits fits s after) ->
    forall s, ss_slice s = data -> script_suits fits s (one_by_one c after).
  Proof.
    induction c as [|p k IH]; intros Hc after data Ha s Hs; cbn [one_by_one]; [apply Ha, Hs|]. destruct Hc as [Hp Hk].
    apply ss_next; [apply single_suits, Hp|]. intros s' r H.
    assert (Hs' : ss_slice s' = data).
    { subst data. clear - H. unfold slice_parse in H. destruct (slice_is_empty s) as [[|]| | |]; cbn [run_bind] in H; try discriminate; [inversion H; reflexivity|].
      destruct (map _ _); try discriminate; destruct (slice_len s); cbn [run_bind] in H; try discriminate;
        [destruct (usize_sub _ _); cbn [run_bind] in H; try discriminate|destruct (usize_sub _ _); cbn [run_bind] in H; try discriminate|]; inversion H; reflexivity. }
    destruct r as [[|t [|t' ts]]|x]; cbn [forget]; try (apply Ha, Hs'). { apply (IH t (Hk t) after data Ha s' Hs'). } destruct x; apply Ha, Hs'.
  Qed.
End Suits.

(** The answers. *)
Definition last_answer {I T E} (e : option (stream_error I E)) : list (sres I (list T) E) := match e with Some e => [forget (inr e)] | None => [] end.
Lemma one_by_one_answers : forall I T E (c : chain I T E) after s,
  on_slice (one_by_one c after) s = let! (s', ts, e) := talk c s in let! rs := on_slice after s' in Done (List.map (fun t => inl [t]) ts ++ last_answer e ++ rs).
Proof.
  intros I T E c. induction c as [|p k IH]; intros after s; cbn [one_by_one talk run_bind on_slice last_answer List.map app].
  - destruct (on_slice after s); reflexivity.
  - assert (G : slice_parse (fun i => map (fun t => [t]) (p i)) s = let! (s', r) := slice_parse p s in Done (s', match r with inl t => inl [t] | inr e => inr e end)).
    { unfold slice_parse. destruct (slice_is_empty s) as [[|]| | |]; cbn [run_bind]; try reflexivity.
      destruct (p _) as [j t|b e|n| |]; cbn [map run_bind]; try reflexivity; destruct (slice_len s); cbn [run_bind]; try reflexivity; destruct (usize_sub _ _); reflexivity. }
    rewrite G. destruct (slice_parse p s) as [[s' [t|e]]| | |]; cbn [run_bind forget]; try reflexivity.
    + rewrite IH. destruct (talk (k t) s') as [[[s2 ts] e]| | |]; cbn [run_bind]; try reflexivity. destruct (on_slice after s2); reflexivity.
    + destruct e; cbn [last_answer forget List.map app]; destruct (on_slice after s'); reflexivity.
Qed.
