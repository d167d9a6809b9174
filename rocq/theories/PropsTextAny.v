(** C90: no parser and no number given to [consume] brings the program text of src/buffer to undefined behaviour or to items that were not delivered. *)
From Coq Require Import List Bool Arith String Lia.
From Verif Require Import Base Combinators Buffer Stream Rust RustText BufferText TextModel BufferTextModel SpecBuffer SpecSafe SpecStream
  BufferProofs StreamProofs SimProofs HistoryProofs PropsStream PropsStreamText SpecTextHistory TextHistoryProofs PropsTextHistory SpecTextAny TextAnyProofs.
Import ListNotations.

Set Implicit Arguments.
Local Open Scope string_scope.
Local Open Scope list_scope.
Local Open Scope nat_scope.

Section C90.
  Context {St B0 T E I : Type}.
  Notation thing := (stream_thing St B0 T E).
  Notation value := (value I thing).
  Variable verbose : bool.
  Variable eqb : I -> I -> bool.
  Variable ds : data_source St I.
  Variable next : St -> option I * St.
  Variable ops0 : buffer_ops I B0.
  Variable cap0 : nat.
  Variable extra alloc : nat -> nat.
  Variable starts : thing.
  Variable acts : thing -> caction value value thing.
  Notation text := (@text St B0 T E I verbose eqb ds next ops0 cap0 extra alloc starts acts).
  Notation text_states := (@text_states St B0 T E I verbose eqb ds next ops0 cap0 extra alloc starts acts).

  (** The buffer shows items that were delivered, the newest ones, in their order and none left out. *)
  Theorem C90_shows d s0 v : obeys d -> text_states d s0 v ->
    exists l, (forall p, comes_to (text p "Source" "buffer" [VRef 0 []] [v]) (VSlice l) [v]) /\
      (forall p, comes_to (text p "Source" "len" [VRef 0 []] [v]) (VNat (List.length l)) [v]) /\
      exists gone s' e en, reads d s0 s' (gone ++ l) e en.
  Proof.
    intros Ho H. destruct (text_states_keep Ho H) as (B & ops & wd & wb & ok & inv & view & room & fits & b0 & st & [A1 A2 -> (Hi & gone & e & en & Hr)]).
    pose proof (nb_ok A2 _ Hi) as Hok. pose proof (nb_parts A2 A1) as HP. pose proof (nb_queue A2) as Q.
    exists (view (src_buffer st)). split; [|split; [|exists gone, (src_source st), e, en; exact Hr]]; intros p.
    - exact (model_comes_to (C88_source_buffer _ _ _ _ _ _ _ _ HP st Hok) (q_deref Q _ Hi)).
    - exact (model_comes_to (C88_source_len _ _ _ _ _ _ _ _ HP st Hok) (q_len Q _ Hi)).
  Qed.

  (** A call of [parse] with the parser [p], whatever it is: the source is read, then the parser is run on what was there and the [new] items.  It is told by
      what it hands back how many of them are left over, and the call panics if the parser does, or if these are more than there were. *)
  Theorem C90_parse d s0 v p l : obeys d -> text_states d s0 v -> (forall i, p i <> NoFuel) ->
    comes_to (text p "Source" "buffer" [VRef 0 []] [v]) (VSlice l) [v] ->
    exists new, (exists gone s' e en, reads d s0 s' (gone ++ l ++ new) e en) /\
      ((panics (text p "Source" "parse" [VRef 0 []; VObj KParser] [v]) /\ exists last, ran_any p last (l ++ new) None) \/
      exists out v' l', comes_to (text p "Source" "parse" [VRef 0 []; VObj KParser] [v]) (w_sres w_kvalue w_kerr out) [v'] /\
        (forall q, comes_to (text q "Source" "buffer" [VRef 0 []] [v']) (VSlice l') [v']) /\
        ((exists x, out = inr (SIoError x) /\ l' = l ++ new) \/
         (out = inr SEndOfInput /\ l ++ new = [] /\ l' = []) \/
         exists last, ran_any p last (l ++ new) (Some (out, l')))).
  Proof.
    intros Ho H Hf Hl. destruct (text_states_keep Ho H) as (B & ops & wd & wb & ok & inv & view & room & fits & b0 & st & [A1 A2 -> (Hi & gone & e0 & en0 & Hg)]).
    pose proof (nb_ok A2 _ Hi) as Hok. pose proof (nb_parts A2 A1) as HP. pose proof (nb_queue A2) as Q.
    assert (Hview : src_view ops st = Done (view (src_buffer st))) by exact (q_deref Q _ Hi).
    destruct (comes_to_model Hl (C88_source_buffer _ _ _ _ _ _ _ _ HP st Hok)) as (l2 & G1 & G2 & _); [rewrite Hview; discriminate|]. inversion G2; subst l2.
    rewrite Hview in G1. inversion G1; subst l. destruct (any_parse_ran Q Ho p st Hi Hf) as (new & e & en & s' & Hr & [(Hm & K)|(st' & r & Hm & _ & K2 & K)]); exists new;
      (split; [exists gone, s', (e0 + e), (en0 || en); rewrite app_assoc; exact (reads_app Hg Hr)|]).
    - left. split; [|exact K]. pose proof (C88_source_parse verbose eqb p cap0 extra alloc starts acts HP st Hok ltac:(rewrite Hm; discriminate)) as K1. rewrite Hm in K1.
      exact (model_panics K1).
    - right. exists r, (w_src wd wb st'), (view (src_buffer st')).
      split; [exact (model_comes_to (C88_source_parse _ _ _ _ _ _ _ _ HP st Hok ltac:(rewrite Hm; discriminate)) Hm)|].
      split; [intros q; exact (model_comes_to (C88_source_buffer _ _ _ _ _ _ _ _ HP st' (nb_ok A2 _ K2)) (q_deref Q _ K2))|exact K].
  Qed.

  (** [consume] takes as many as asked for if they are there, and panics if they are not. *)
  Theorem C90_consume d s0 v p k l : obeys d -> text_states d s0 v -> comes_to (text p "Source" "buffer" [VRef 0 []] [v]) (VSlice l) [v] ->
    (k <= List.length l -> exists v', comes_to (text p "Source" "consume" [VRef 0 []; VNat k] [v]) VUnit [v'] /\
       comes_to (text p "Source" "buffer" [VRef 0 []] [v']) (VSlice (skipn k l)) [v']) /\
    (List.length l < k -> panics (text p "Source" "consume" [VRef 0 []; VNat k] [v])).
  Proof.
    intros Ho H Hl. destruct (text_states_keep Ho H) as (B & ops & wd & wb & ok & inv & view & room & fits & b0 & st & [A1 A2 -> (Hi & _)]).
    pose proof (nb_ok A2 _ Hi) as Hok. pose proof (nb_parts A2 A1) as HP. pose proof (nb_queue A2) as Q. assert (Hview : src_view ops st = Done (view (src_buffer st))) by exact (q_deref Q _ Hi).
    destruct (comes_to_model Hl (C88_source_buffer _ _ _ _ _ _ _ _ HP st Hok)) as (l2 & G1 & G2 & _); [rewrite Hview; discriminate|]. inversion G2; subst l2.
    rewrite Hview in G1. inversion G1; subst l. split; intros Hk.
    - destruct (q_consume Q _ Hi Hk) as (b' & Hm & K2 & K3).
      assert (Hs : src_consume ops k st = Done (src_with st b' (src_source st))) by (unfold src_consume; rewrite Hm; reflexivity).
      exists (w_src wd wb (src_with st b' (src_source st))). split; [exact (model_comes_to (C88_source_consume _ _ _ _ _ _ _ _ HP st k Hok) Hs)|].
      rewrite <- K3. exact (model_comes_to (C88_source_buffer _ _ _ _ _ _ _ _ HP (src_with st b' (src_source st)) (nb_ok A2 _ K2)) (q_deref Q _ K2)).
    - assert (Hs : src_consume ops k st = Panicked) by (unfold src_consume; rewrite (nb_refuses A2 _ Hi Hk); reflexivity).
      pose proof (C88_source_consume verbose eqb p cap0 extra alloc starts acts HP st k Hok) as K. rewrite Hs in K. exact (model_panics K).
  Qed.

  (** The other calls do not even panic. *)
  Theorem C90_calls d s0 v : obeys d -> text_states d s0 v ->
    (forall p, exists r v', comes_to (text p "Source" "fill" [VRef 0 []] [v]) r [v']) /\
    (forall p m cap more count, exists r v' m',
       comes_to (text p "Source" "read" [VRef 0 []; VPart 1 [] 0 (List.length m)] [v; VMem m cap more count]) r [v'; VMem m' cap more count]) /\
    (forall p, exists r v', comes_to (text p "Source" "fill_buf" [VRef 0 []] [v]) r [v']) /\
    (forall p, exists v', comes_to (text p "Source" "reset" [VRef 0 []] [v]) VUnit [v']) /\
    (forall p a, exists v', comes_to (text p "Source" "set_autofill" [VRef 0 []; VBool a] [v]) VUnit [v']).
  Proof.
    intros Ho H. destruct (text_states_keep Ho H) as (B & ops & wd & wb & ok & inv & view & room & fits & b0 & st & [A1 A2 -> (Hi & _)]).
    pose proof (nb_ok A2 _ Hi) as Hok. pose proof (nb_parts A2 A1) as HP. pose proof (nb_queue A2) as Q. repeat split; intros p.
    - destruct (src_fill_spec Q Ho st Hi) as (st' & r' & new & e & en & Hm & _). eexists. eexists.
      exact (model_comes_to (C88_source_fill _ _ _ _ _ _ _ _ HP st Hok ltac:(rewrite Hm; discriminate)) Hm).
    - intros m cap more count. destruct (src_read_spec Q Ho (List.length m) st Hi) as (b' & s' & new & e & en & r' & _ & _ & Hm & _). eexists. eexists. eexists.
      exact (model_comes_to (C88_source_read _ _ _ _ _ _ _ _ HP st m cap more count 0 _ Hok ltac:(rewrite Hm; discriminate)) Hm).
    - destruct (src_fill_buf_spec Q Ho st Hi) as (b' & s' & new & e & en & r' & _ & _ & Hm & _). eexists. eexists.
      exact (model_comes_to (C88_source_fill_buf _ _ _ _ _ _ _ _ HP st Hok ltac:(rewrite Hm; discriminate)) Hm).
    - eexists. exact (model_comes_to (C88_source_reset _ _ _ _ _ _ _ _ HP st) eq_refl).
    - intros a. eexists. exact (model_comes_to (C88_source_set_autofill _ _ _ _ _ _ _ _ HP st a) eq_refl).
  Qed.

  (** From a source that has the items [data] to give the buffer shows a part of [data] in one piece. *)
  Theorem C90_part d s0 v R data e0 : obeys d -> delivers d R -> R s0 data e0 -> text_states d s0 v ->
    exists gone l rest, data = gone ++ l ++ rest /\ forall p, comes_to (text p "Source" "buffer" [VRef 0 []] [v]) (VSlice l) [v].
  Proof.
    intros Ho HR H0 H. destruct (C90_shows Ho H) as (l & Hl & _ & gone & s' & e & en & Hr). destruct (reads_delivers HR Hr _ _ H0) as (rest & G1 & _).
    exists gone, l, rest. split; [|exact Hl]. rewrite app_assoc. exact G1.
  Qed.
End C90.
(** The theorems of this file together, as for C89. *)
Definition C90_theorems := (@C90_shows, @C90_parse, @C90_consume, @C90_calls, @C90_part).
Print Assumptions C90_theorems.

(** * Concrete cases *)

Section C90Cases.
  (** A reader that hands out all it has been asked for; a parser that hands back items it was never given, one less than it got; one that hands
      back more than it got. *)
  Let all : data_source (list nat) nat :=
    mkDataSource (fun s n => let w := firstn n s in (skipn (List.length w) s, List.map Some w, IoOk (List.length w))).
  Let uncons (s : list nat) : option nat * list nat := match s with [] => (None, []) | x :: s => (Some x, s) end.
  Let forger : parser nat nat nat := fun i => Data (mkInput (last i) (repeat 77 (List.length (buf i) - 1))) 0.
  Let hoarder : parser nat nat nat := fun i => Data (mkInput (last i) (5 :: buf i)) 0.
  Notation thing := (stream_thing (list nat) (growing nat) nat nat).
  Notation say := (@text (list nat) (growing nat) nat nat nat true Nat.eqb all uncons (growing_ops nat) 0 (fun _ => 0) (fun _ => 1) KParser no_acts).
  Notation state v := (@text_states (list nat) (growing nat) nat nat nat true Nat.eqb all uncons (growing_ops nat) 0 (fun _ => 0) (fun _ => 1) KParser no_acts
    (read_data_source (ds_read all)) [1; 2; 3; 4; 5] v).
  Notation reader := (fun s => VCon "ReadDataSource" "" [w_ksource s]).

  Example C90_source_case : obeys (read_data_source (ds_read all)).
  Proof.
    intros s n s' w k H. unfold read_data_source, all in H. cbn [ds_read] in H. injection H as _ Hw Hk. subst w.
    assert (Hn : List.length (firstn n s) <= n) by (rewrite firstn_length; lia). rewrite Hk in Hn. split; [assumption|]. exists (firstn n s). split; [exact Hk|].
    unfold writes. rewrite <- (map_length Some (firstn n s)). apply firstn_all.
  Qed.
  Ltac model := lazymatch goal with |- ?x = ?y => let z := eval vm_compute in x in change (z = y); reflexivity end.
  (** A Source with a buffer of three: the forger takes one of three items and the other two are still the ones of the reader.  Then the hoarder makes
      [parse] panic, and so does [consume] of three. *)
  Example C90_case : exists v, state v /\ comes_to (say forger "Source" "buffer" [VRef 0 []] [v]) (VSlice [2; 3]) [v] /\
    panics (say hoarder "Source" "parse" [VRef 0 []; VObj KParser] [v]) /\ panics (say forger "Source" "consume" [VRef 0 []; VNat 3] [v]).
  Proof.
    assert (HP : source_parts all uncons (growing_ops nat) (read_data_source (ds_read all)) reader (fixed_ops nat) (w_fixed (O := thing) 3 (fun _ => 1) 0) (fun _ => True))
      by (apply with_fixed; apply read_in_source).
    assert (go : forall st st' r, src_parse (read_data_source (ds_read all)) (fixed_ops nat) forger st = Done (st', r) ->
      comes_to (say forger "Source" "parse" [VRef 0 []; VObj KParser] [w_src reader (w_fixed 3 (fun _ => 1) 0) st]) (w_sres w_kvalue w_kerr r)
        [w_src reader (w_fixed 3 (fun _ => 1) 0) st']).
    { intros st st' r Hm. exact (model_comes_to (C88_source_parse _ _ _ _ _ _ _ _ HP st Logic.I ltac:(rewrite Hm; discriminate)) Hm). }
    assert (HS : exists st, state (w_src reader (w_fixed 3 (fun _ => 1) 0) st) /\ op_deref (fixed_ops nat) (src_buffer st) = Done [2; 3] /\
      src_parse (read_data_source (ds_read all)) (fixed_ops nat) hoarder st = Panicked).
    { eexists. split; [|split].
      - eapply (a_parse (p := forger)); [|discriminate|].
        1: apply a_made; eapply (m_from_read (p := forger)).
        + eapply (b_sized (p := forger) (n := 3)). exact (model_comes_to (C88_fixed_with_size _ _ _ _ _ _ _ _ _ _ _ 3) (a := mkFixed (repeat None 3) 0 0) eq_refl).
        + exact (model_comes_to (C88_from_read _ _ _ _ _ _ _ _ _ _ _ (w_fixed 3 (fun _ => 1) 0) _ _) eq_refl).
        + eapply go; model.
      - model.
      - model. }
    destruct HS as (st & HS & Hb & Hh). exists (w_src reader (w_fixed 3 (fun _ => 1) 0) st).
    assert (Hl : comes_to (say forger "Source" "buffer" [VRef 0 []] [w_src reader (w_fixed 3 (fun _ => 1) 0) st]) (VSlice [2; 3]) [w_src reader (w_fixed 3 (fun _ => 1) 0) st])
      by exact (model_comes_to (C88_source_buffer _ _ _ _ _ _ _ _ HP st Logic.I) Hb).
    split; [exact HS|]. split; [exact Hl|]. split.
    - pose proof (C88_source_parse true Nat.eqb hoarder 0 (fun _ => 0) (fun _ => 1) KParser no_acts HP st Logic.I ltac:(rewrite Hh; discriminate)) as K. rewrite Hh in K.
      exact (model_panics K).
    - apply (C90_consume 3 C90_source_case HS Hl). cbn. lia.
  Qed.
End C90Cases.
