(** Lemmas for C90. *)
From Coq Require Import List Bool Arith String Lia.
From Verif Require Import Base Combinators Buffer Stream Rust RustText BufferText TextModel BufferTextModel SpecBuffer SpecSafe SpecStream
  BufferProofs StreamProofs SimProofs PropsStream PropsStreamText SpecTextHistory TextHistoryProofs SpecTextAny.
Import ListNotations.

Set Implicit Arguments.
Local Open Scope string_scope.
Local Open Scope list_scope.
Local Open Scope nat_scope.

Lemma model_panics {I O A : Type} (g : nat -> out I O (value I O) * list (value I O)) (wv : A -> value I O) (ws : A -> list (value I O)) :
  meets g Panicked wv ws -> panics g.
Proof. intros [n Hn]. exists n. exact Hn. Qed.

(** A parser that may do anything. *)
Section Any.
  Context {St I B : Type}.
  Variable ds : data_source St I.
  Variables (ops : buffer_ops I B) (inv : B -> Prop) (view : B -> list I) (room : B -> nat) (fits : nat -> Prop).
  Hypothesis Q : queue_like ops inv view room fits.
  Hypothesis Ho : obeys ds.

  (** The buffer is sound and shows an end of what was delivered. *)
  Definition keeps (s0 : St) (st : src St B) : Prop :=
    inv (src_buffer st) /\ exists gone e en, reads ds s0 (src_source st) (gone ++ view (src_buffer st)) e en.

  Lemma keeps_step s0 st st' new e en k : keeps s0 st -> reads ds (src_source st) (src_source st') new e en -> inv (src_buffer st') ->
    view (src_buffer st') = skipn k (view (src_buffer st) ++ new) -> keeps s0 st'.
  Proof.
    intros (_ & gone & e0 & en0 & H) Hr Hi Hv. split; [assumption|]. exists (gone ++ firstn k (view (src_buffer st) ++ new)), (e0 + e), (en0 || en).
    rewrite Hv, <- app_assoc, firstn_skipn, app_assoc. eapply reads_app; eassumption.
  Qed.

  Lemma any_parse T E (p : parser I T E) st : inv (src_buffer st) -> (forall i, p i <> NoFuel) ->
    src_parse ds ops p st = Panicked \/
    exists st' r new e en k, src_parse ds ops p st = Done (st', r) /\ reads ds (src_source st) (src_source st') new e en /\ inv (src_buffer st') /\
      view (src_buffer st') = skipn k (view (src_buffer st) ++ new).
  Proof.
    intros Hi Hf.
    assert (HF : exists st1 r1 new e en, (if src_incomplete st && src_auto st then src_fill ds ops st else Done (st, IoOk 0)) = Done (st1, r1) /\
      reads ds (src_source st) (src_source st1) new e en /\ inv (src_buffer st1) /\ view (src_buffer st1) = view (src_buffer st) ++ new).
    { destruct (src_incomplete st && src_auto st).
      - destruct (src_fill_spec Q Ho st Hi) as (st1 & r & new & e & en & G1 & G2 & G3 & G4 & _). exists st1, r, new, e, en. auto.
      - exists st, (IoOk 0), [], 0, false. split; [reflexivity|]. split; [apply rd_none|]. split; [assumption|]. rewrite app_nil_r. reflexivity. }
    destruct HF as (st1 & r1 & new & e & en & G1 & G2 & G3 & G4). unfold src_parse. rewrite G1. cbn [run_bind].
    assert (stay : forall r : sres I T E, exists st' r' new0 e0 en0 k, Done (st1, r) = Done (st', r') /\ reads ds (src_source st) (src_source st') new0 e0 en0 /\ inv (src_buffer st') /\
      view (src_buffer st') = skipn k (view (src_buffer st) ++ new0)) by (intros r; exists st1, r, new, e, en, 0; auto).
    destruct r1 as [m|x]; [|right; apply stay].
    assert (HE : src_is_empty ops st1 = Done (src_eoi st1 && (List.length (view (src_buffer st1)) =? 0))).
    { unfold src_is_empty, src_len. destruct (src_eoi st1); [rewrite (q_len Q _ G3)|]; reflexivity. }
    rewrite HE. cbn [run_bind]. destruct (src_eoi st1 && _); [right; apply stay|]. rewrite (q_deref Q _ G3). cbn [run_bind].
    assert (eat : forall n (r : sres I T E),
      (let! l := op_len ops (src_buffer st1) in let! n := usize_sub l n in let! b := op_consume ops (src_buffer st1) n in Done (src_with st1 b (src_source st1), r)) = Panicked \/
      exists st' r' new0 e0 en0 k, (let! l := op_len ops (src_buffer st1) in let! n := usize_sub l n in let! b := op_consume ops (src_buffer st1) n in
        Done (src_with st1 b (src_source st1), r)) = Done (st', r') /\ reads ds (src_source st) (src_source st') new0 e0 en0 /\ inv (src_buffer st') /\
        view (src_buffer st') = skipn k (view (src_buffer st) ++ new0)).
    { intros n r. rewrite (q_len Q _ G3). cbn [run_bind]. unfold usize_sub. destruct (Nat.leb_spec n (List.length (view (src_buffer st1)))) as [Hn|Hn]; [|left; reflexivity].
      cbn [run_bind]. right. destruct (q_consume Q _ G3 (k := List.length (view (src_buffer st1)) - n)) as (b & K1 & K2 & K3); [lia|]. rewrite K1. cbn [run_bind].
      exists (src_with st1 b (src_source st1)), r, new, e, en, (List.length (view (src_buffer st1)) - n). split; [reflexivity|]. split; [exact G2|]. split; [exact K2|].
      cbn [src_with src_buffer]. rewrite K3, G4. reflexivity. }
    destruct (p _) as [j v|b x|n| |] eqn:Ep; [apply eat|apply eat| |left; reflexivity|exfalso; exact (Hf _ Ep)].
    rewrite (q_len Q _ G3). cbn [run_bind]. right. destruct (src_eoi st1); eexists _, _, new, e, en, 0; (split; [reflexivity|]); cbn [src_source src_buffer]; auto.
  Qed.

  (** What it answers and shows then. *)
  Lemma any_parse_ran T E (p : parser I T E) st : inv (src_buffer st) -> (forall i, p i <> NoFuel) ->
    exists new e en s', reads ds (src_source st) s' new e en /\
      ((src_parse ds ops p st = Panicked /\ exists last, ran_any p last (view (src_buffer st) ++ new) None) \/
       exists st' r, src_parse ds ops p st = Done (st', r) /\ src_source st' = s' /\ inv (src_buffer st') /\
         ((exists x, r = inr (SIoError x) /\ view (src_buffer st') = view (src_buffer st) ++ new) \/
          (r = inr SEndOfInput /\ view (src_buffer st) ++ new = [] /\ view (src_buffer st') = []) \/
          exists last, ran_any p last (view (src_buffer st) ++ new) (Some (r, view (src_buffer st'))))).
  Proof.
    intros Hi Hf.
    assert (HF : exists st1 r1 new e en, (if src_incomplete st && src_auto st then src_fill ds ops st else Done (st, IoOk 0)) = Done (st1, r1) /\
      reads ds (src_source st) (src_source st1) new e en /\ inv (src_buffer st1) /\ view (src_buffer st1) = view (src_buffer st) ++ new).
    { destruct (src_incomplete st && src_auto st).
      - destruct (src_fill_spec Q Ho st Hi) as (st1 & r & new & e & en & G1 & G2 & G3 & G4 & _). exists st1, r, new, e, en. auto.
      - exists st, (IoOk 0), [], 0, false. split; [reflexivity|]. split; [apply rd_none|]. split; [assumption|]. rewrite app_nil_r. reflexivity. }
    destruct HF as (st1 & r1 & new & e & en & G1 & G2 & G3 & G4). exists new, e, en, (src_source st1). split; [exact G2|]. unfold src_parse. rewrite G1. cbn [run_bind].
    rewrite <- G4. destruct r1 as [m|x]; [|right; exists st1, (inr (SIoError x)); repeat split; auto; left; exists x; auto].
    assert (HE : src_is_empty ops st1 = Done (src_eoi st1 && (List.length (view (src_buffer st1)) =? 0))).
    { unfold src_is_empty, src_len. destruct (src_eoi st1); [rewrite (q_len Q _ G3)|]; reflexivity. }
    rewrite HE. cbn [run_bind]. destruct (src_eoi st1 && _) eqn:Eb.
    { apply andb_true_iff in Eb. destruct Eb as [_ Eb]. apply Nat.eqb_eq, length_zero_iff_nil in Eb. right. exists st1, (inr SEndOfInput). rewrite Eb. repeat split; auto. }
    rewrite (q_deref Q _ G3). cbn [run_bind]. set (d := view (src_buffer st1)) in *.
    assert (eat : forall n (r : sres I T E),
      let out := let! l := op_len ops (src_buffer st1) in let! n := usize_sub l n in let! b := op_consume ops (src_buffer st1) n in Done (src_with st1 b (src_source st1), r) in
      (out = Panicked /\ None = (if n <=? List.length d then Some (r, skipn (List.length d - n) d) else None)) \/
      exists st', out = Done (st', r) /\ src_source st' = src_source st1 /\ inv (src_buffer st') /\
        Some (r, view (src_buffer st')) = (if n <=? List.length d then Some (r, skipn (List.length d - n) d) else None)).
    { intros n r out. unfold out. rewrite (q_len Q _ G3). cbn [run_bind]. unfold usize_sub. fold d. destruct (Nat.leb_spec n (List.length d)) as [Hn|Hn]; [|left; split; reflexivity].
      cbn [run_bind]. right. destruct (q_consume Q _ G3 (k := List.length d - n)) as (b & K1 & K2 & K3); [fold d; lia|]. rewrite K1. cbn [run_bind].
      exists (src_with st1 b (src_source st1)). repeat split; [exact K2|]. cbn [src_with src_buffer]. rewrite K3. reflexivity. }
    unfold ran_any. destruct (p (mkInput (src_eoi st1) d)) as [j v|b x|n| |] eqn:Ep.
    - destruct (eat (List.length (buf j)) (inl v)) as [[K1 K2]|(st' & K1 & K2 & K3 & K4)].
      + left. split; [exact K1|]. exists (src_eoi st1). rewrite Ep. exact K2.
      + right. exists st', (inl v). repeat split; [exact K1|exact K2|exact K3|]. right. right. exists (src_eoi st1). rewrite Ep. exact K4.
    - destruct (eat (List.length b) (inr (SParseError b x))) as [[K1 K2]|(st' & K1 & K2 & K3 & K4)].
      + left. split; [exact K1|]. exists (src_eoi st1). rewrite Ep. exact K2.
      + right. eexists st', _. repeat split; [exact K1|exact K2|exact K3|]. right. right. exists (src_eoi st1). rewrite Ep. exact K4.
    - rewrite (q_len Q _ G3). cbn [run_bind]. right.
      destruct (src_eoi st1) eqn:El; eexists _, _; (split; [reflexivity|]); cbn [src_source src_buffer]; repeat split; auto; right; right; eexists; rewrite Ep; reflexivity.
    - left. split; [reflexivity|]. exists (src_eoi st1). rewrite Ep. reflexivity.
    - exfalso. exact (Hf _ Ep).
  Qed.
End Any.

Section TextAnyProofs.
  Context {St B0 T E I : Type}.
  Notation thing := (stream_thing St B0 T E).
  Notation value := (value I thing).
  Variable verbose : bool.
  Variable eqb : I -> I -> bool.
  Variable ds : data_source St I.
  Variable next : St -> option I * St.
  Variable ops0 : buffer_ops I B0.
  Variable cap0 : nat.
  Variable extra alloc : nat -> nat.
  Variable starts : thing.
  Variable acts : thing -> caction value value thing.
  Notation text := (@text St B0 T E I verbose eqb ds next ops0 cap0 extra alloc starts acts).
  Notation text_states := (@text_states St B0 T E I verbose eqb ds next ops0 cap0 extra alloc starts acts).

  (** The Source [v] is the writing of [st], which keeps its invariant. *)
  Record keeps_as {B : Type} (d : data_source St I) (s0 : St) (v : value) (wd : St -> value) (ops : buffer_ops I B) (wb : B -> value)
    (ok inv : B -> Prop) (view : B -> list I) (room : B -> nat) (fits : nat -> Prop) (b0 : B) (st : src St B) : Prop := {
    ka_source : @source_in_source St B0 T E I ds next d wd;
    ka_buffer : @new_buffer St B0 T E I ds next ops0 B ops wb ok inv view room fits b0;
    ka_value : v = w_src wd wb st;
    ka_keeps : keeps d inv view s0 st }.

  Lemma text_states_keep d s0 v : obeys d -> text_states d s0 v ->
    exists B (ops : buffer_ops I B) wd wb ok inv view room fits b0 st, keeps_as d s0 v wd ops wb ok inv view room fits b0 st.
  Proof.
    intros Ho H.
    induction H as [v H|v p r v' H IH Hu Hc|v p r v' H IH Hc|v p m cap more count r v' m' H IH Hc|v p r v' H IH Hc|v p k r v' H IH Hc|v p r v' H IH Hc|v p a r v' H IH Hc].
    1: { destruct (made_stands H) as (B & ops & wd & wb & ok & inv & view & room & fits & b0 & A1 & A2 & A3). do 10 eexists. eexists. split; [exact A1|exact A2|exact A3|].
         split; [exact (nb_inv A2)|]. exists [], 0, false. cbn [src_with_buffer src_source src_buffer]. rewrite (nb_view A2). apply rd_none. }
    all: destruct IH as (B & ops & wd & wb & ok & inv & view & room & fits & b0 & st & [A1 A2 -> A4]); exists B, ops, wd, wb, ok, inv, view, room, fits, b0;
      pose proof (proj1 A4) as Hi; pose proof (nb_ok A2 _ Hi) as Hok; pose proof (nb_parts A2 A1) as HP; pose proof (nb_queue A2) as Q.
    - destruct (any_parse Q Ho p st Hi Hu) as [Hm|(st' & r' & new & e & en & k & Hm & K1 & K2 & K3)];
        destruct (comes_to_model Hc (C88_source_parse _ _ _ _ _ _ _ _ HP st Hok ltac:(rewrite Hm; discriminate))) as ([st2 r2] & G1 & G2 & G3); try (rewrite Hm; discriminate); rewrite Hm in G1; [discriminate|].
      inversion G1; subst st2 r2. cbn [fst snd] in G3. inversion G3. exists st'. split; [exact A1|exact A2|reflexivity|]. exact (keeps_step _ (k) A4 K1 K2 K3).
    - destruct (src_fill_spec Q Ho st Hi) as (st' & r' & new & e & en & Hm & K1 & K2 & K3 & _).
      destruct (comes_to_model Hc (C88_source_fill _ _ _ _ _ _ _ _ HP st Hok ltac:(rewrite Hm; discriminate))) as ([st2 r2] & G1 & G2 & G3); [rewrite Hm; discriminate|]. rewrite Hm in G1.
      inversion G1; subst st2 r2. cbn [fst snd] in G3. inversion G3. exists st'. split; [exact A1|exact A2|reflexivity|]. exact (keeps_step st' (0) A4 K1 K2 K3).
    - destruct (src_read_spec Q Ho (List.length m) st Hi) as (b' & s' & new & e & en & r' & K1 & K2 & Hm & K3).
      destruct (comes_to_model Hc (C88_source_read _ _ _ _ _ _ _ _ HP st _ _ _ _ _ _ Hok ltac:(rewrite Hm; discriminate))) as ([st2 r2] & G1 & G2 & G3); [rewrite Hm; discriminate|]. rewrite Hm in G1.
      inversion G1; subst st2 r2. cbn [fst snd] in G3. inversion G3. exists (src_with st b' s'). split; [exact A1|exact A2|reflexivity|].
      destruct r' as [l|x]; [destruct K3 as (_ & _ & K3 & _); exact (keeps_step (src_with st b' s') (List.length m) A4 K1 K2 K3)|destruct K3 as (_ & K3 & _); exact (keeps_step (src_with st b' s') (0) A4 K1 K2 K3)].
    - destruct (src_fill_buf_spec Q Ho st Hi) as (b' & s' & new & e & en & r' & K1 & K2 & Hm & K3 & _).
      destruct (comes_to_model Hc (C88_source_fill_buf _ _ _ _ _ _ _ _ HP st Hok ltac:(rewrite Hm; discriminate))) as ([st2 r2] & G1 & G2 & G3); [rewrite Hm; discriminate|]. rewrite Hm in G1.
      inversion G1; subst st2 r2. cbn [fst snd] in G3. inversion G3. exists (src_with st b' s'). split; [exact A1|exact A2|reflexivity|]. exact (keeps_step (src_with st b' s') (0) A4 K1 K2 K3).
    - destruct (le_lt_dec k (List.length (view (src_buffer st)))) as [Hk|Hk].
      + destruct (q_consume Q _ Hi Hk) as (b' & Hm & K2 & K3).
        assert (Hs : src_consume ops k st = Done (src_with st b' (src_source st))) by (unfold src_consume; rewrite Hm; reflexivity).
        destruct (comes_to_model Hc (C88_source_consume _ _ _ _ _ _ _ _ HP st k Hok)) as (st2 & G1 & G2 & G3); [rewrite Hs; discriminate|]. rewrite Hs in G1. inversion G1; subst st2.
        inversion G3. exists (src_with st b' (src_source st)). split; [exact A1|exact A2|reflexivity|]. refine (keeps_step (new := []) (e := 0) (en := false) (src_with st b' (src_source st)) k _ _ _ _); [exact A4|apply rd_none|exact K2|].
        rewrite app_nil_r. exact K3.
      + assert (Hs : src_consume ops k st = Panicked) by (unfold src_consume; rewrite (nb_refuses A2 _ Hi Hk); reflexivity).
        destruct (comes_to_model Hc (C88_source_consume _ _ _ _ _ _ _ _ HP st k Hok)) as (st2 & G1 & G2 & G3); rewrite Hs in *; discriminate.
    - destruct (comes_to_model Hc (C88_source_reset _ _ _ _ _ _ _ _ HP st)) as (st2 & G3 & G4 & G5); [discriminate|].
      inversion G3; subst st2. inversion G5. eexists. split; [exact A1|exact A2|reflexivity|]. exact A4.
    - destruct (comes_to_model Hc (C88_source_set_autofill _ _ _ _ _ _ _ _ HP st a)) as (st2 & G3 & G4 & G5); [discriminate|].
      inversion G3; subst st2. inversion G5. eexists. split; [exact A1|exact A2|reflexivity|]. exact A4.
  Qed.
End TextAnyProofs.
