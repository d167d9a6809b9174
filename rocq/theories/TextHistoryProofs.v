(** Lemmas for C89: every execution of SpecTextHistory.v stands where an execution of the model stands. *)
From Coq Require Import List Bool Arith String Lia.
From Verif Require Import Base Combinators Buffer Stream Rust RustText BufferText TextModel BufferTextModel SpecBuffer SpecSafe SpecStream
  BufferProofs StreamProofs SimProofs PropsStream PropsStreamText SpecTextHistory.
Import ListNotations.

Set Implicit Arguments.
Local Open Scope string_scope.
Local Open Scope list_scope.
Local Open Scope nat_scope.

Lemma comes_to_model {I O A : Type} (g : nat -> out I O (value I O) * list (value I O)) v s (r : run A) wv ws :
  comes_to g v s -> meets g r wv ws -> r <> Stuck -> exists a, r = Done a /\ v = wv a /\ s = ws a.
Proof.
  intros [n Hn] [k Hk] HS. specialize (Hn (n + k) ltac:(lia)). specialize (Hk (n + k) ltac:(lia)). rewrite Hn in Hk.
  destruct r as [a| | |]; cbn [fst] in Hk; [|discriminate|discriminate|congruence]. exists a. inversion Hk. auto.
Qed.
Lemma model_comes_to {I O A : Type} (g : nat -> out I O (value I O) * list (value I O)) (r : run A) wv ws a :
  meets g r wv ws -> r = Done a -> comes_to g (wv a) (ws a).
Proof. intros [n Hn] ->. exists n. exact Hn. Qed.
Lemma somes_all {I : Type} (l : list I) : somes (List.map Some l) = l.
Proof. induction l as [|x l IH]; cbn; [reflexivity|]. f_equal. exact IH. Qed.
Lemma overwrite_all {I : Type} (l : list I) : forall m, List.length l <= List.length m -> firstn (List.length l) (overwrite (List.map Some l) m) = List.map Some l.
Proof. induction l as [|x l IH]; intros [|y m] H; cbn in *; [reflexivity|reflexivity|lia|]. f_equal. apply IH. lia. Qed.
Lemma told_handed {St B0 T E I : Type} (r : sres I (list I * T) (list I * E)) :
  handed (w_sres (I := I) (O := stream_thing St B0 (list I * T) (list I * E)) w_kvalue w_kerr r) = told r.
Proof. destruct r as [[h t]|[b [h e]| | | |]]; reflexivity. Qed.
Lemma telling_usable {T E I : Type} (p : parser I T E) : usable p -> (forall i, telling p i <> Panic) /\ (forall i, telling p i <> NoFuel).
Proof.
  intros (_ & H1 & H2). split; intros i; specialize (H1 i); specialize (H2 i); unfold telling; destruct (p i); congruence.
Qed.

Section TextMadeProofs.
  Context {St B0 T E I : Type}.
  Notation thing := (stream_thing St B0 T E).
  Notation value := (value I thing).
  Variable verbose : bool.
  Variable eqb : I -> I -> bool.
  Variable ds : data_source St I.
  Variable next : St -> option I * St.
  Variable ops0 : buffer_ops I B0.
  Variable cap0 : nat.
  Variable extra alloc : nat -> nat.
  Variable starts : thing.
  Variable acts : thing -> caction value value thing.
  Notation text := (@text St B0 T E I verbose eqb ds next ops0 cap0 extra alloc starts acts).
  Notation made_buffer := (@made_buffer St B0 T E I verbose eqb ds next ops0 cap0 extra alloc starts acts).
  Notation made := (@made St B0 T E I verbose eqb ds next ops0 cap0 extra alloc starts acts).

  (** The buffer [b0], written by [wb], is a new one. *)
  Record new_buffer {B : Type} (ops : buffer_ops I B) (wb : B -> value) (ok inv : B -> Prop) (view : B -> list I) (room : B -> nat) (fits : nat -> Prop) (b0 : B) : Prop := {
    nb_parts : forall d wd, @source_in_source St B0 T E I ds next d wd ->
                 @source_parts St B0 T E I ds next ops0 d wd B ops wb ok;
    nb_queue : queue_like ops inv view room fits;
    nb_inv : inv b0;
    nb_view : view b0 = [];
    nb_ok : forall b, inv b -> ok b;
    nb_refuses : forall b k, inv b -> List.length (view b) < k -> op_consume ops b k = Panicked }.
  Lemma fixed_new_buffer size cap more count (b0 : fixed I) : fixed_with_size size = Done b0 ->
    new_buffer (fixed_ops I) (w_fixed cap more count) (fun _ => True) (fixed_inv size) fixed_view fixed_room (fun m => m <= size) b0.
  Proof.
    intros H. destruct (fixed_fresh _ _ _ H) as (_ & H1 & H2). split; auto; [intros d wd Hd; apply with_fixed; exact Hd|apply fixed_queue|].
    intros b k [Hs _] Hk. pose proof Hs as (Hu & _). unfold fixed_view in Hk. rewrite sview_length in Hk by exact Hs. cbn [fixed_ops op_consume]. unfold fixed_consume.
    replace (_ <=? _) with false by (symmetry; apply Nat.leb_gt; lia). reflexivity.
  Qed.
  Lemma growing_new_buffer limit :
    new_buffer (growing_ops I) w_growing (fun b => List.length (g_mem b) <= g_cap b) growing_inv growing_view growing_room (fun _ => False)
      (growing_with_limit cap0 alloc limit).
  Proof.
    destruct (@growing_new I cap0 alloc limit) as (H1 & H2 & _). split; auto; [intros d wd Hd; apply with_growing; exact Hd|apply growing_queue|intros b [_ H]; exact H|].
    intros b k [Hs _] Hk. pose proof Hs as (Hu & _). unfold growing_view in Hk. rewrite sview_length in Hk by exact Hs. cbn [growing_ops op_consume]. unfold growing_consume.
    replace (_ <=? _) with false by (symmetry; apply Nat.leb_gt; lia). reflexivity.
  Qed.

  Lemma made_buffer_new v : made_buffer v ->
    exists (B : Type) (ops : buffer_ops I B) wb ok inv view room fits b0, v = wb b0 /\ new_buffer ops wb ok inv view room fits b0.
  Proof.
    intros [p b H|p n b H|p b H|p n b H].
    - destruct (comes_to_model H (C88_fixed_new _ _ _ _ _ _ _ _ _ _ _)) as (b0 & H1 & H2 & _).
      { unfold fixed_with_size. destruct (0 <? 6 * 1024); discriminate. }
      do 9 eexists. split; [exact H2|]. apply fixed_new_buffer with (1 := H1).
    - destruct (comes_to_model H (C88_fixed_with_size _ _ _ _ _ _ _ _ _ _ _ _)) as (b0 & H1 & H2 & _).
      { unfold fixed_with_size. destruct (0 <? n); discriminate. }
      do 9 eexists. split; [exact H2|]. apply fixed_new_buffer with (1 := H1).
    - destruct (comes_to_model H (C88_growing_new _ _ _ _ _ _ _ _ _ _ _)) as (b0 & H1 & H2 & _); [discriminate|]. inversion H1; subst b0.
      do 9 eexists. split; [exact H2|]. apply growing_new_buffer.
    - destruct (comes_to_model H (C88_growing_with_limit _ _ _ _ _ _ _ _ _ _ _ _)) as (b0 & H1 & H2 & _); [discriminate|]. inversion H1; subst b0.
      do 9 eexists. split; [exact H2|]. apply growing_new_buffer.
  Qed.

  Lemma made_stands d s0 v : made d s0 v ->
    exists B (ops : buffer_ops I B) wd wb ok inv view room fits b0, @source_in_source St B0 T E I ds next d wd /\ new_buffer ops wb ok inv view room fits b0 /\
      v = w_src wd wb (src_with_buffer s0 b0).
  Proof.
    intros [p s w H|p s b w Hb H|p s b w Hb H|p s b w Hb H].
    - destruct (comes_to_model H (C88_source_new _ _ _ _ _ _ _ _ _ _ _ _)) as (st & H1 & H2 & _).
      { unfold fixed_with_size. destruct (0 <? 6 * 1024); discriminate. }
      destruct (fixed_with_size (6 * 1024)) as [b0| | |] eqn:Eb; cbn [run_bind] in H1; try discriminate. inversion H1; subst st.
      do 10 eexists. split; [apply read_in_source|split; [apply fixed_new_buffer with (1 := Eb)|exact H2]].
    - destruct (made_buffer_new Hb) as (B & ops & wb & ok & inv & view & room & fits & b0 & -> & HN).
      destruct (comes_to_model H (C88_from_read _ _ _ _ _ _ _ _ _ _ _ wb _ _)) as (st & H1 & H2 & _); [discriminate|]. inversion H1; subst st.
      do 10 eexists. split; [apply read_in_source|split; [exact HN|exact H2]].
    - destruct (made_buffer_new Hb) as (B & ops & wb & ok & inv & view & room & fits & b0 & -> & HN).
      destruct (comes_to_model H (C88_from_iter _ _ _ _ _ _ _ _ _ _ _ wb _ _)) as (st & H1 & H2 & _); [discriminate|]. inversion H1; subst st.
      do 10 eexists. split; [apply iterator_in_source|split; [exact HN|exact H2]].
    - destruct (made_buffer_new Hb) as (B & ops & wb & ok & inv & view & room & fits & b0 & -> & HN).
      assert (HP := nb_parts HN (@other_source St B0 T E I ds next)).
      destruct (comes_to_model H (C88_with_buffer _ _ _ _ _ _ _ _ HP _ _)) as (st & H1 & H2 & _); [discriminate|]. inversion H1; subst st.
      do 10 eexists. split; [apply other_source|split; [exact HN|exact H2]].
  Qed.
End TextMadeProofs.

Section TextHistoryProofs.
  Context {St B0 T E I : Type}.
  Notation thing := (stream_thing St B0 (list I * T) (list I * E)).
  Notation value := (value I thing).
  Variable verbose : bool.
  Variable eqb : I -> I -> bool.
  Variable ds : data_source St I.
  Variable next : St -> option I * St.
  Variable ops0 : buffer_ops I B0.
  Variable cap0 : nat.
  Variable extra alloc : nat -> nat.
  Variable starts : thing.
  Variable acts : thing -> caction value value thing.
  Notation text := (@text St B0 (list I * T) (list I * E) I verbose eqb ds next ops0 cap0 extra alloc starts acts).
  Notation made_buffer := (@made_buffer St B0 (list I * T) (list I * E) I verbose eqb ds next ops0 cap0 extra alloc starts acts).
  Notation made := (@made St B0 (list I * T) (list I * E) I verbose eqb ds next ops0 cap0 extra alloc starts acts).
  Notation text_history := (@text_history St B0 T E I verbose eqb ds next ops0 cap0 extra alloc starts acts).

  (** The Source [v] stands where a Source of the model stands. *)
  Record stands_as {B : Type} (d : data_source St I) (s0 : St) (v : value) (gone : list I) (wd : St -> value) (ops : buffer_ops I B) (wb : B -> value)
    (ok inv : B -> Prop) (view : B -> list I) (room : B -> nat) (fits : nat -> Prop) (b0 : B) (st : src St B) : Prop := {
    sa_source : @source_in_source St B0 (list I * T) (list I * E) I ds next d wd;
    sa_buffer : @new_buffer St B0 (list I * T) (list I * E) I ds next ops0 B ops wb ok inv view room fits b0;
    sa_value : v = w_src wd wb st;
    sa_history : history d ops anything s0 b0 st gone }.

  (** What the model says of a Source that stands so. *)
  Lemma stands_fine {B : Type} d s0 v gone wd (ops : buffer_ops I B) wb ok inv view room fits b0 st : obeys d ->
    stands_as d s0 v gone wd ops wb ok inv view room fits b0 st ->
    inv (src_buffer st) /\ ok (src_buffer st) /\ source_parts ds next ops0 d wd ops wb ok /\ all_calls_fine d ops st /\ src_view ops st = Done (view (src_buffer st)) /\
    exists e en, reads d s0 (src_source st) (gone ++ view (src_buffer st)) e en.
  Proof.
    intros Ho [H1 [N1 N2 N3 N4 N5 _] H3 H4]. destruct (history_inv N2 Ho N3 N4 H4) as (Hi & new & e & en & Hr & ->).
    split; [assumption|]. split; [apply N5; assumption|]. split; [apply N1; assumption|]. split; [exact (calls_fine d _ _ _ _ _ N2 Ho st Hi)|].
    split; [exact (q_deref N2 _ Hi)|]. eauto.
  Qed.

  Lemma text_history_stands d s0 v gone : obeys d -> text_history d s0 v gone ->
    exists B (ops : buffer_ops I B) wd wb ok inv view room fits b0 st, stands_as d s0 v gone wd ops wb ok inv view room fits b0 st.
  Proof.
    intros Ho H.
    induction H as [v H|v out p r v' H IH Hu Hc|v out p r v' H IH Hc|v out p m cap more count r v' m' H IH Hc|v out p r v' H IH Hc|v out p l k r v' H IH Hl Hk Hc|v out p r v' H IH Hc|v out p a r v' H IH Hc].
    1: { destruct (made_stands H) as (B & ops & wd & wb & ok & inv & view & room & fits & b0 & A1 & A2 & A3). do 10 eexists. eexists. split; [exact A1|exact A2|exact A3|apply h_new]. }
    all: destruct IH as (B & ops & wd & wb & ok & inv & view & room & fits & b0 & st & HA);
      destruct (stands_fine Ho HA) as (Hi & Hok & HP & (F1 & F2 & F3 & F4 & F5 & F6 & F7) & Hview & _);
      destruct HA as [A1 A2 -> A4]; exists B, ops, wd, wb, ok, inv, view, room, fits, b0.
    - destruct (telling_usable Hu) as [Hp Hf]. destruct Hu as [Hw Hu]. destruct (F6 _ _ (telling p)) as (st' & r' & Hm); [|assumption|assumption|].
      { intros i. specialize (Hw i). unfold telling. destruct (p i); exact Hw. }
      destruct (comes_to_model Hc (C88_source_parse _ _ _ _ _ _ _ _ HP st Hok ltac:(rewrite Hm; discriminate))) as ([st2 r2] & G1 & G2 & G3); [rewrite Hm; discriminate|].
      cbn [fst snd] in G2, G3. inversion G3; subst v'. subst r. rewrite told_handed.
      exists st2. split; [assumption|assumption|reflexivity|]. eapply h_parse; [exact A4|exact Hw|exact Logic.I|exact G1].
    - destruct F2 as (st' & r' & Hm).
      destruct (comes_to_model Hc (C88_source_fill _ _ _ _ _ _ _ _ HP st Hok ltac:(rewrite Hm; discriminate))) as ([st2 r2] & G1 & G2 & G3); [rewrite Hm; discriminate|].
      cbn [fst snd] in G2, G3. inversion G3; subst v'. exists st2. split; [assumption|assumption|reflexivity|]. eapply h_fill; [exact A4|exact G1].
    - destruct (F3 (List.length m)) as (st' & r' & Hm).
      destruct (comes_to_model Hc (C88_source_read _ _ _ _ _ _ _ _ HP st _ _ _ _ _ _ Hok ltac:(rewrite Hm; discriminate))) as ([st2 r2] & G1 & G2 & G3); [rewrite Hm; discriminate|].
      cbn [fst snd firstn skipn app] in G2, G3. inversion G3; subst v' m'. subst r.
      exists st2. replace (copied _ _) with (match r2 with IoOk l => l | IoErr _ => [] end); [split; [assumption|assumption|reflexivity|eapply h_read; [exact A4|exact G1]]|].
      destruct r2 as [l|e]; cbn [w_io copied]; [|reflexivity].
      assert (Hlen : List.length l <= List.length m).
      { destruct (src_read_spec (nb_queue A2) Ho (List.length m) st Hi) as (b' & s' & new & e & en & r3 & _ & _ & G4 & G5). rewrite G1 in G4. inversion G4; subst r3.
        destruct G5 as (_ & -> & _). rewrite firstn_length. lia. }
      rewrite overwrite_all by assumption. rewrite somes_all. reflexivity.
    - destruct F4 as (st' & r' & Hm).
      destruct (comes_to_model Hc (C88_source_fill_buf _ _ _ _ _ _ _ _ HP st Hok ltac:(rewrite Hm; discriminate))) as ([st2 r2] & G1 & G2 & G3); [rewrite Hm; discriminate|].
      cbn [fst snd] in G2, G3. inversion G3; subst v'. exists st2. split; [assumption|assumption|reflexivity|]. eapply h_fill_buf; [exact A4|exact G1].
    - destruct (comes_to_model Hl (C88_source_buffer _ _ _ _ _ _ _ _ HP st Hok)) as (l2 & G1 & G2 & _); [rewrite Hview; discriminate|]. inversion G2; subst l2.
      destruct (F5 l k G1 Hk) as (st' & Hm).
      destruct (comes_to_model Hc (C88_source_consume _ _ _ _ _ _ _ _ HP st k Hok)) as (st2 & G3 & G4 & G5); [rewrite Hm; discriminate|].
      inversion G5; subst v'. exists st2. split; [assumption|assumption|reflexivity|]. eapply h_consume; [exact A4|exact G1|exact Hk|exact G3].
    - destruct (comes_to_model Hc (C88_source_reset _ _ _ _ _ _ _ _ HP st)) as (st2 & G3 & G4 & G5); [discriminate|].
      inversion G3; subst st2. inversion G5; subst v'. eexists. split; [assumption|assumption|reflexivity|]. apply h_reset; exact A4.
    - destruct (comes_to_model Hc (C88_source_set_autofill _ _ _ _ _ _ _ _ HP st a)) as (st2 & G3 & G4 & G5); [discriminate|].
      inversion G3; subst st2. inversion G5; subst v'. eexists. split; [assumption|assumption|reflexivity|]. apply h_autofill; exact A4.
  Qed.
End TextHistoryProofs.
