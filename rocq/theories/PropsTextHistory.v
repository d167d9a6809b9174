(** C89: whatever a user of a Source does, the program text does not go wrong, and no item is lost, made up or handed out twice. *)
From Coq Require Import List Bool Arith String Lia.
From Verif Require Import Base Combinators Buffer Stream Rust RustText BufferText TextModel BufferTextModel SpecBuffer SpecSafe SpecStream
  BufferProofs StreamProofs SimProofs HistoryProofs PropsStream PropsStreamText SpecTextHistory TextHistoryProofs.
Import ListNotations.

Set Implicit Arguments.
Local Open Scope string_scope.
Local Open Scope list_scope.
Local Open Scope nat_scope.

Section C89.
  Context {St B0 T E I : Type}.
  Notation thing := (stream_thing St B0 (list I * T) (list I * E)).
  Notation value := (value I thing).
  Variable verbose : bool.
  Variable eqb : I -> I -> bool.
  Variable ds : data_source St I.
  Variable next : St -> option I * St.
  Variable ops0 : buffer_ops I B0.
  Variable cap0 : nat.
  Variable extra alloc : nat -> nat.
  Variable starts : thing.
  Variable acts : thing -> caction value value thing.
  Notation text := (@text St B0 (list I * T) (list I * E) I verbose eqb ds next ops0 cap0 extra alloc starts acts).
  Notation text_history := (@text_history St B0 T E I verbose eqb ds next ops0 cap0 extra alloc starts acts).

  (** The data source is one that keeps to the contract of [read]. *)
  Theorem C89_items d s0 v gone : obeys d -> text_history d s0 v gone ->
    exists l, (forall p, comes_to (text p "Source" "buffer" [VRef 0 []] [v]) (VSlice l) [v]) /\
      exists s' e en, reads d s0 s' (gone ++ l) e en.
  Proof.
    intros Ho H. destruct (text_history_stands Ho H) as (B & ops & wd & wb & ok & inv & view & room & fits & b0 & st & HA).
    destruct (stands_fine Ho HA) as (Hi & Hok & HP & _ & Hview & e & en & Hr). destruct HA as [_ _ -> _].
    exists (view (src_buffer st)). split; [|exists (src_source st), e, en; exact Hr].
    intros p. exact (model_comes_to (C88_source_buffer _ _ _ _ _ _ _ _ HP st Hok) Hview).
  Qed.

  (** So it is with a reader or iterator that has the items [data] to give, in whatever pieces and with whatever errors in between. *)
  Theorem C89_prefix d s0 v gone R data e0 : obeys d -> delivers d R -> R s0 data e0 -> text_history d s0 v gone ->
    exists l rest, data = gone ++ l ++ rest /\ forall p, comes_to (text p "Source" "buffer" [VRef 0 []] [v]) (VSlice l) [v].
  Proof.
    intros Ho HR H0 H. destruct (text_history_stands Ho H) as (B & ops & wd & wb & ok & inv & view & room & fits & b0 & st & HA).
    destruct (stands_fine Ho HA) as (Hi & Hok & HP & _ & Hview & _). destruct HA as [_ [_ N2 N3 N4 _ _] -> A4].
    assert (K : exists rest e, R (src_source st) rest e /\ e <= e0 /\ data = gone ++ view (src_buffer st) ++ rest /\ inv (src_buffer st))
      by exact (history_delivers N2 Ho HR _ _ N3 N4 A4 H0).
    destruct K as (rest & e & _ & _ & -> & _).
    exists (view (src_buffer st)), rest. split; [reflexivity|]. intros p. exact (model_comes_to (C88_source_buffer _ _ _ _ _ _ _ _ HP st Hok) Hview).
  Qed.
  Theorem C89_iterator s0 v gone data : exactly next s0 data 0 -> text_history (iter_data_source next) s0 v gone ->
    exists l rest, data = gone ++ l ++ rest /\ forall p, comes_to (text p "Source" "buffer" [VRef 0 []] [v]) (VSlice l) [v].
  Proof. intros H0 H. eapply C89_prefix; [apply iter_obeys|apply iter_delivers|exact H0|exact H]. Qed.

  (** Every further call comes to a value: there is no panic, no undefined behaviour and no endless run.  Of [consume] (BufRead) this is for calls that
      take no more than there is. *)
  Theorem C89_calls d s0 v gone : obeys d -> text_history d s0 v gone ->
    (forall p, usable p -> exists r v', comes_to (text (telling p) "Source" "parse" [VRef 0 []; VObj KParser] [v]) r [v']) /\
    (forall p, exists r v', comes_to (text p "Source" "fill" [VRef 0 []] [v]) r [v']) /\
    (forall p m cap more count, exists r v' m',
       comes_to (text p "Source" "read" [VRef 0 []; VPart 1 [] 0 (List.length m)] [v; VMem m cap more count]) r [v'; VMem m' cap more count]) /\
    (forall p, exists r v', comes_to (text p "Source" "fill_buf" [VRef 0 []] [v]) r [v']) /\
    (forall p, exists l, comes_to (text p "Source" "buffer" [VRef 0 []] [v]) (VSlice l) [v] /\
       comes_to (text p "Source" "len" [VRef 0 []] [v]) (VNat (List.length l)) [v] /\
       forall k, k <= List.length l -> exists v', comes_to (text p "Source" "consume" [VRef 0 []; VNat k] [v]) VUnit [v']) /\
    (forall p, exists v', comes_to (text p "Source" "reset" [VRef 0 []] [v]) VUnit [v']) /\
    (forall p a, exists v', comes_to (text p "Source" "set_autofill" [VRef 0 []; VBool a] [v]) VUnit [v']).
  Proof.
    intros Ho H. destruct (text_history_stands Ho H) as (B & ops & wd & wb & ok & inv & view & room & fits & b0 & st & HA).
    destruct (stands_fine Ho HA) as (Hi & Hok & HP & (F1 & F2 & F3 & F4 & F5 & F6 & F7) & Hview & _). destruct HA as [_ [_ N2 _ _ _ _] -> _].
    split; [|split; [|split; [|split; [|split; [|split]]]]].
    - intros p Hu. destruct (telling_usable Hu) as [Hp Hf]. destruct Hu as [Hw _]. destruct (F6 _ _ (telling p)) as (st' & r & Hm); [apply telling_well_behaved; assumption|assumption|assumption|].
      eexists. eexists. exact (model_comes_to (C88_source_parse _ _ _ _ _ _ _ _ HP st Hok ltac:(rewrite Hm; discriminate)) Hm).
    - intros p. destruct F2 as (st' & r & Hm). eexists. eexists. exact (model_comes_to (C88_source_fill _ _ _ _ _ _ _ _ HP st Hok ltac:(rewrite Hm; discriminate)) Hm).
    - intros p m cap more count. destruct (F3 (List.length m)) as (st' & r & Hm). eexists. eexists. eexists.
      exact (model_comes_to (C88_source_read _ _ _ _ _ _ _ _ HP st m cap more count 0 _ Hok ltac:(rewrite Hm; discriminate)) Hm).
    - intros p. destruct F4 as (st' & r & Hm). eexists. eexists. exact (model_comes_to (C88_source_fill_buf _ _ _ _ _ _ _ _ HP st Hok ltac:(rewrite Hm; discriminate)) Hm).
    - intros p. exists (view (src_buffer st)). split; [exact (model_comes_to (C88_source_buffer _ _ _ _ _ _ _ _ HP st Hok) Hview)|].
      split; [exact (model_comes_to (C88_source_len _ _ _ _ _ _ _ _ HP st Hok) (q_len N2 _ Hi))|].
      intros k Hk. destruct (F5 _ k Hview Hk) as (st' & Hm). eexists. exact (model_comes_to (C88_source_consume _ _ _ _ _ _ _ _ HP st k Hok) Hm).
    - intros p. eexists. exact (model_comes_to (C88_source_reset _ _ _ _ _ _ _ _ HP st) eq_refl).
    - intros p a. eexists. exact (model_comes_to (C88_source_set_autofill _ _ _ _ _ _ _ _ HP st a) eq_refl).
  Qed.

  (** What [parse] does: the parser is run, on all that was there and [new] items, and what it left is left; or there was an error or nothing at all. *)
  Theorem C89_parse d s0 v gone p l r v' : obeys d -> text_history d s0 v gone -> usable p ->
    comes_to (text (telling p) "Source" "buffer" [VRef 0 []] [v]) (VSlice l) [v] ->
    comes_to (text (telling p) "Source" "parse" [VRef 0 []; VObj KParser] [v]) r [v'] ->
    exists new last out l', r = w_sres w_kvalue w_kerr out /\ (forall q, comes_to (text q "Source" "buffer" [VRef 0 []] [v']) (VSlice l') [v']) /\
      ((exists x, out = inr (SIoError x) /\ l' = l ++ new) \/
       (out = inr SEndOfInput /\ l ++ new = [] /\ l' = []) \/
       ran (telling p) last (l ++ new) out l').
  Proof.
    intros Ho H Hu Hl Hc. destruct (text_history_stands Ho H) as (B & ops & wd & wb & ok & inv & view & room & fits & b0 & st & HA).
    destruct (stands_fine Ho HA) as (Hi & Hok & HP & (F1 & F2 & F3 & F4 & F5 & F6 & F7) & Hview & _). destruct HA as [_ [_ N2 _ _ N5 _] -> _].
    destruct (comes_to_model Hl (C88_source_buffer _ _ _ _ _ _ _ _ HP st Hok)) as (l2 & G1 & G2 & _); [rewrite Hview; discriminate|]. inversion G2; subst l2.
    rewrite Hview in G1. inversion G1; subst l. clear G1 G2.
    destruct (telling_usable Hu) as [Hp Hf]. destruct Hu as [Hw _]. pose proof (telling_well_behaved Hw) as Hwt.
    destruct (F6 _ _ (telling p) Hwt Hp Hf) as (st' & r' & Hm).
    destruct (comes_to_model Hc (C88_source_parse _ _ _ _ _ _ _ _ HP st Hok ltac:(rewrite Hm; discriminate))) as ([st2 r2] & G1 & G2 & G3); [rewrite Hm; discriminate|].
    cbn [fst snd] in G2, G3. inversion G3; subst v'. subst r.
    destruct (call_ran N2 Ho st Hi Hwt G1) as (new & e & en & _ & Hi2 & _ & _ & K).
    exists new, (src_eoi st2), r2, (view (src_buffer st2)). split; [reflexivity|].
    split; [intros q; exact (model_comes_to (C88_source_buffer _ _ _ _ _ _ _ _ HP st2 (N5 _ Hi2)) (q_deref N2 _ Hi2))|].
    destruct K as [(x & K1 & K2 & _)|[(_ & _ & K1 & K2 & K3)|(_ & _ & K & _)]]; eauto.
  Qed.
End C89.
(** The theorems of this file together: the walk through what they rest on is long. *)
Definition C89_theorems := (@C89_items, @C89_prefix, @C89_iterator, @C89_calls, @C89_parse).
Print Assumptions C89_theorems.

(** * Concrete cases *)

Section C89Cases.
  (** As in the cases of C88: a reader that hands out pieces of at most two, and fails at 9; a parser that takes three items. *)
  Let pieces : data_source (list nat) nat :=
    mkDataSource (fun s n => match s with
                             | 9 :: s => (s, [], IoErr 7)
                             | _ => let w := firstn (Nat.min 2 n) s in (skipn (List.length w) s, List.map Some w, IoOk (List.length w))
                             end).
  Let uncons (s : list nat) : option nat * list nat := match s with [] => (None, []) | x :: s => (Some x, s) end.
  Let three : parser nat nat nat :=
    fun i => match buf i with
             | x :: y :: z :: b => Data (mkInput (last i) b) (x + y + z)
             | b => Incomplete (3 - List.length b)
             end.
  Notation thing := (stream_thing (list nat) (growing nat) (list nat * nat) (list nat * nat)).
  Notation said v gone := (@text_history (list nat) (growing nat) nat nat nat true Nat.eqb pieces uncons (growing_ops nat) 0 (fun _ => 0) (fun _ => 1) KParser no_acts
    (read_data_source (ds_read pieces)) [1; 2; 3; 4; 9; 5; 6] v gone).
  Notation reader := (fun s => VCon "ReadDataSource" "" [w_ksource s]).

  Example C89_source_case : obeys (read_data_source (ds_read pieces)).
  Proof.
    intros s n s' w k H. assert (E : exists w1, w = List.map Some w1 /\ List.length w1 = k /\ k <= n).
    { unfold read_data_source, pieces in H. cbn [ds_read] in H.
      assert (Hn : List.length (firstn (Nat.min 2 n) s) <= n) by (rewrite firstn_length; lia).
      assert (G : (skipn (List.length (firstn (Nat.min 2 n) s)) s, List.map Some (firstn (Nat.min 2 n) s), IoOk (List.length (firstn (Nat.min 2 n) s))) = (s', w, IoOk k) ->
        exists w1, w = List.map Some w1 /\ List.length w1 = k /\ k <= n).
      { intros G. injection G as _ Hw Hk. exists (firstn (Nat.min 2 n) s). split; [symmetry; exact Hw|]. split; [exact Hk|]. rewrite <- Hk. exact Hn. }
      destruct s as [|x s]; [apply G; exact H|]. do 9 (destruct x as [|x]; [apply G; exact H|]). destruct x as [|x]; [discriminate|apply G; exact H]. }
    destruct E as (w1 & -> & <- & H1). split; [assumption|]. exists w1. split; [reflexivity|]. unfold writes. rewrite <- (map_length Some w1). apply firstn_all.
  Qed.
  Example C89_parser_case : usable three.
  Proof.
    split; [|split]; intros [l [|x [|y [|z b]]]]; cbn; try discriminate; try exact Logic.I.
    all: repeat split; cbn; auto; exists [x; y; z]; reflexivity.
  Qed.

  Ltac model := lazymatch goal with |- ?x = ?y => let z := eval vm_compute in x in change (z = y); reflexivity end.
  (** A Source is made from the reader and a buffer of four; [parse] asks for more, then takes three of four items, then asks for more, then
      meets the error of the reader; [consume] takes the fourth item. *)
  Example C89_case : exists v, said v [1; 2; 3; 4].
  Proof.
    eexists.
    assert (HP : source_parts pieces uncons (growing_ops nat) (read_data_source (ds_read pieces)) reader (fixed_ops nat) (w_fixed (O := thing) 4 (fun _ => 1) 0) (fun _ => True))
      by (apply with_fixed; apply read_in_source).
    assert (step : forall v out g r v', said v out -> comes_to (text true Nat.eqb pieces uncons (growing_ops nat) 0 (fun _ => 0) (fun _ => 1) KParser no_acts
      (telling three) "Source" "parse" [VRef 0 []; VObj KParser] [v]) r [v'] -> out ++ handed r = g -> said v' g).
    { intros v out g r v' H1 H2 <-. exact (t_parse H1 C89_parser_case H2). }
    assert (go : forall st st' r, src_parse (read_data_source (ds_read pieces)) (fixed_ops nat) (telling three) st = Done (st', r) ->
      comes_to (text true Nat.eqb pieces uncons (growing_ops nat) 0 (fun _ => 0) (fun _ => 1) KParser no_acts (telling three) "Source" "parse" [VRef 0 []; VObj KParser]
        [w_src reader (w_fixed 4 (fun _ => 1) 0) st]) (w_sres w_kvalue w_kerr r) [w_src reader (w_fixed 4 (fun _ => 1) 0) st']).
    { intros st st' r Hm. exact (model_comes_to (C88_source_parse _ _ _ _ _ _ _ _ HP st Logic.I ltac:(rewrite Hm; discriminate)) Hm). }
    change [1; 2; 3; 4] with ([1; 2; 3] ++ [4]).
    eapply (t_consume (p := telling three) (l := [4]) (k := 1)); [| |cbn; lia|].
    - eapply (step _ [1; 2; 3]); [eapply (step _ [1; 2; 3]); [eapply (step _ []); [eapply (step _ [])|..]|..]|..].
      + apply t_made. eapply (m_from_read (p := telling three)).
        * eapply (b_sized (p := telling three) (n := 4)). exact (model_comes_to (C88_fixed_with_size _ _ _ _ _ _ _ _ _ _ _ 4) (a := mkFixed (repeat None 4) 0 0) eq_refl).
        * exact (model_comes_to (C88_from_read _ _ _ _ _ _ _ _ _ _ _ (w_fixed 4 (fun _ => 1) 0) _ _) eq_refl).
      + eapply go; model.
      + reflexivity.
      + eapply go; model.
      + reflexivity.
      + eapply go; model.
      + reflexivity.
      + eapply go; model.
      + reflexivity.
    - eapply (model_comes_to (C88_source_buffer _ _ _ _ _ _ _ _ HP _ Logic.I)); model.
    - eapply (model_comes_to (C88_source_consume _ _ _ _ _ _ _ _ HP _ 1 Logic.I)); model.
  Qed.
  (** The same parser on an iterator, with a GrowingBuffer: [parse] asks for more, then takes three items. *)
  Example C89_iterator_data : exactly uncons [1; 2; 3; 4] [1; 2; 3; 4] 0.
  Proof.
    exists [], (fun s => s = []). split; [repeat (econstructor; [reflexivity|]); constructor|]. split; [reflexivity|]. intros x ->. exists []. split; reflexivity.
  Qed.
  Example C89_iterator_case : exists v, @text_history (list nat) (growing nat) nat nat nat true Nat.eqb pieces uncons (growing_ops nat) 0 (fun _ => 0) (fun _ => 1)
    KParser no_acts (iter_data_source uncons) [1; 2; 3; 4] v [1; 2; 3].
  Proof.
    eexists.
    assert (HP : source_parts (B0 := growing nat) (T := list nat * nat) (E := list nat * nat) pieces uncons (growing_ops nat) (iter_data_source uncons)
      (fun s => VCon "IteratorDataSource" "" [w_ksource s]) (growing_ops nat) w_growing (fun b => List.length (g_mem b) <= g_cap b))
      by (apply with_growing; apply iterator_in_source).
    assert (go : forall st st' r, List.length (g_mem (src_buffer st)) <= g_cap (src_buffer st) ->
      src_parse (iter_data_source uncons) (growing_ops nat) (telling three) st = Done (st', r) ->
      comes_to (text true Nat.eqb pieces uncons (growing_ops nat) 0 (fun _ => 0) (fun _ => 1) KParser no_acts (telling three) "Source" "parse" [VRef 0 []; VObj KParser]
        [w_src (fun s => VCon "IteratorDataSource" "" [w_ksource s]) w_growing st]) (w_sres w_kvalue w_kerr r)
        [w_src (fun s => VCon "IteratorDataSource" "" [w_ksource s]) w_growing st']).
    { intros st st' r Hok Hm. exact (model_comes_to (C88_source_parse _ _ _ _ _ _ _ _ HP st Hok ltac:(rewrite Hm; discriminate)) Hm). }
    assert (step : forall v out g r v', @text_history (list nat) (growing nat) nat nat nat true Nat.eqb pieces uncons (growing_ops nat) 0 (fun _ => 0) (fun _ => 1)
      KParser no_acts (iter_data_source uncons) [1; 2; 3; 4] v out -> comes_to (text true Nat.eqb pieces uncons (growing_ops nat) 0 (fun _ => 0) (fun _ => 1) KParser no_acts
      (telling three) "Source" "parse" [VRef 0 []; VObj KParser] [v]) r [v'] -> out ++ handed r = g -> @text_history (list nat) (growing nat) nat nat nat true Nat.eqb pieces uncons (growing_ops nat) 0 (fun _ => 0) (fun _ => 1)
      KParser no_acts (iter_data_source uncons) [1; 2; 3; 4] v' g).
    { intros v out g r v' H1 H2 <-. exact (t_parse H1 C89_parser_case H2). }
    eapply (step _ []); [eapply (step _ [])|..].
    - apply t_made. eapply (m_from_iter (p := telling three)).
      + eapply (b_growing (p := telling three)). exact (model_comes_to (C88_growing_new _ _ _ _ _ _ _ _ _ _ _) eq_refl).
      + exact (model_comes_to (C88_from_iter _ _ _ _ _ _ _ _ _ _ _ w_growing _ _) eq_refl).
    - eapply go; [cbn; lia|model].
    - reflexivity.
    - eapply go; [cbn; lia|model].
    - reflexivity.
  Qed.
End C89Cases.
