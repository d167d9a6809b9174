(** C81: every use of a Source is explained by the data that remains. *)
From Coq Require Import List Bool Arith Lia.
From Verif Require Import Base Parsers Combinators Buffer Stream StdIo SpecBase SpecBuffer SpecSafe SpecStream SpecPaced BufferProofs StreamProofs SimProofs PacedProofs PropsPaced
  SpecAnyBuffer PropsAnyBuffer Effects SpecEffects SpecKeep KeepProofs PropsKeep SpecUse Word SpecWord WordProofs Unwind UnwindProofs UseProofs.
Import ListNotations.

Set Implicit Arguments.

(** Whatever calls are made in whatever order, by a client which acts as it likes on its state in between: each answer is explained by
    the data that remains. *)
Theorem C81_explained : forall W St I B (ds : data_source St I) (ops : buffer_ops I B) fits b0 R s data e (es : list (event W I)) st w w',
  obeys ds -> delivers ds R -> R s data e -> lawful ops fits b0 -> fits 1 ->
  happen ds ops es (src_with_buffer s b0) w st w' -> all_fair fits es data w ->
  exists rest, explain fits es data w rest w'.
Proof.
  intros W St I B ds ops fits b0 R s data e es st w w' Ho HR Hs (inv & view & room & Q & Hi & Hv) Hone Hh Hf.
  destruct (use_steps Q Ho Hone HR Hh (@ready_new _ _ _ ds _ _ _ _ _ R s data e b0 Q Hi Hv Hone Hs) Hf) as (rest & d & e' & H & _). eauto.
Qed.
Print Assumptions C81_explained.

(** There is one explanation: an answer fixes what remains. *)
Theorem C81_determined : forall W I fits (es : list (event W I)) rest w rest1 w1 rest2 w2,
  explain fits es rest w rest1 w1 -> explain fits es rest w rest2 w2 -> rest1 = rest2 /\ w1 = w2.
Proof.
  intros W I fits es rest w rest1 w1 rest2 w2 H. revert rest2 w2.
  assert (One : forall ev rest (w : W) (resta restb : list I) wa wb, explains fits ev rest w resta wa -> explains fits ev rest w restb wb -> resta = restb /\ wa = wb).
  { clear. intros ev rest w resta restb wa wb H K.
    destruct ev as [T E p [v|[l x|n|x| |]]|T E p|r|n [l|x]|cap [l|x]|n|l n b| |v|f]; cbn [explains] in *; repeat match goal with Hx : _ /\ _ |- _ => destruct Hx | Hx : exists _, _ |- _ => destruct Hx end; subst; auto; try (split; congruence).
    match goal with Hx : l ++ _ = l ++ _ |- _ => apply app_inv_head in Hx end. auto. }
  induction H as [rest w|ev es rest w resta wa restb wb H H' IH]; intros rest2 w2 H2.
  - inversion H2. auto.
  - inversion H2 as [|ev1 es1 rest0 w0 restc wc restd wd K K']. subst. destruct (One _ _ _ _ _ _ _ H K). subst. auto.
Qed.
Print Assumptions C81_determined.

(** Of calls at the same point, whatever the way there, final answers of [parse] are the same (of an error the client may see more or
    less of the data behind it), and so is what remains; as is the answer of [read], if the buffer can hold as much. *)
Theorem C81_same : forall W I fits rest (w : W), 
  (forall T E (p : sparser W I T E) r1 r2 rest1 w1 rest2 w2, explains fits (Asked p r1) rest w rest1 w1 -> explains fits (Asked p r2) rest w rest2 w2 -> ~ again r1 -> ~ again r2 ->
    forget r1 = forget r2 /\ rest1 = rest2 /\ w1 = w2) /\
  (forall n (l1 l2 : list I) rest1 w1 rest2 w2, explains fits (Got n (IoOk l1)) rest w rest1 w1 -> explains fits (Got n (IoOk l2)) rest w rest2 w2 -> fits (Nat.min n (length rest)) ->
    l1 = l2 /\ rest1 = rest2 /\ w1 = w2).
Proof.
  intros W I fits rest w. split.
  - intros T E p r1 r2 rest1 w1 rest2 w2 H1 H2 N1 N2.
    destruct r1 as [v1|[l1 x1|n1|x1| |]]; try (exfalso; apply N1; unfold again; eauto; fail); destruct r2 as [v2|[l2 x2|n2|x2| |]]; try (exfalso; apply N2; unfold again; eauto; fail);
      cbn [explains] in *; repeat match goal with Hx : _ /\ _ |- _ => destruct Hx | Hx : exists _, _ |- _ => destruct Hx end; subst; try congruence;
      try (match goal with A : p w _ = _, B : p w _ = _ |- _ => rewrite A in B; try discriminate B; injection B; intros; subst end); cbn; auto.
  - intros n l1 l2 rest1 w1 rest2 w2 (A1 & A2 & _ & _ & A3) (B1 & B2 & _ & _ & B3) Hf. specialize (A3 Hf). specialize (B3 Hf). rewrite <- B3 in A3. subst l1.
    split; [reflexivity|]. rewrite A1 in B1. apply app_inv_head in B1. split; congruence.
Qed.
Print Assumptions C81_same.

(** What remains is an end of the data: nothing is lost, repeated or put in another order. *)
Theorem C81_order : forall W I fits (es : list (event W I)) data w rest w', explain fits es data w rest w' -> all_fair fits es data w -> suffix rest data.
Proof.
  intros W I fits es data w rest w' H. induction H as [rest w|ev es rest w rest1 w1 rest2 w2 H H' IH]; intros Hf; [exists []; reflexivity|].
  destruct Hf as [Hf1 Hf2]. specialize (IH (Hf2 _ _ H)). destruct IH as [b Hb]. assert (G : suffix rest1 rest); [|destruct G as [a Ha]; exists (a ++ b); rewrite <- app_assoc, <- Hb; exact Ha].
  destruct ev as [T E p [v|[l x|n|x| |]]|T E p|r|n [l|x]|cap [l|x]|n|l n k| |v|f]; cbn [explains fair] in *; repeat match goal with Hx : _ /\ _ |- _ => destruct Hx | Hx : exists _, _ |- _ => destruct Hx end; subst;
    try (exists []; reflexivity).
  - pose proof (sw_well_behaved Hf1 (mkInput true rest)) as Hw. cbn beta in Hw. match goal with Hx : p w _ = _ |- _ => rewrite Hx in Hw end. cbn in Hw. apply Hw.
  - pose proof (sw_well_behaved Hf1 (mkInput true rest)) as Hw. cbn beta in Hw. match goal with Hx : p w _ = _ |- _ => rewrite Hx in Hw end. cbn in Hw. exact Hw.
  - exists l. reflexivity.
  - exists (firstn n rest). symmetry. apply firstn_skipn.
Qed.
Print Assumptions C81_order.

(** At any time every call returns; [parse] panics only where the parser panics on all that remains, and then, if the panic is caught, the
    session goes on with [Crashed]. *)
Theorem C81_returns : forall W St I B (ds : data_source St I) (ops : buffer_ops I B) fits b0 R s data e (es : list (event W I)) st w w' rest,
  obeys ds -> delivers ds R -> R s data e -> lawful ops fits b0 -> fits 1 ->
  happen ds ops es (src_with_buffer s b0) w st w' -> all_fair fits es data w -> explain fits es data w rest w' ->
  (exists st1 r, src_fill ds ops st = Done (st1, r)) /\ (forall n, exists st1 r, src_read ds ops n st = Done (st1, r)) /\
  (exists st1 r, src_fill_buf ds ops st = Done (st1, r)) /\
  (exists l b, src_view ops st = Done l /\ src_len ops st = Done (length l) /\ src_is_empty ops st = Done b /\ begins l rest /\
    forall n, n <= length l -> exists st1, src_consume ops n st = Done st1) /\
  forall T E (p : sparser W I T E), suits_w fits rest w' p ->
    (exists st1 r w1, src_parse_w ds ops p st w' = (Done (st1, r), w1)) \/
    (exists st1 w1, src_parse_w ds ops p st w' = (Panicked, w1) /\ happens ds ops (Crashed p) st w' st1 w1 /\ rest <> [] /\ p w' (mkInput true rest) = (Panic, w1)).
Proof.
  intros W St I B ds ops fits b0 R s data e es st w w' rest Ho HR Hs (inv & view & room & Q & Hi & Hv) Hone Hh Hf Hx.
  destruct (use_steps Q Ho Hone HR Hh (@ready_new _ _ _ ds _ _ _ _ _ R s data e b0 Q Hi Hv Hone Hs) Hf) as (rest' & d & e' & H & Hr & _).
  destruct (C81_determined H Hx) as [-> _]. pose proof Hr as [Hi1 _ Hrest _ _ _]. split; [|split; [|split; [|split]]].
  - destruct (ready_fill Q Ho HR Hr) as (st1 & r & d1 & e1 & G & _). eauto.
  - intros n. destruct (ready_read Q Ho Hone HR n Hr) as (st1 & r & d1 & e1 & G & _). eauto.
  - destruct (ready_fill_buf Q Ho Hone HR Hr) as (st1 & r & d1 & e1 & G & _). eauto.
  - exists (view (src_buffer st)). unfold src_view, src_is_empty, src_len. rewrite (q_deref Q _ Hi1), (q_len Q _ Hi1). cbn [run_bind].
    exists (if src_eoi st then length (view (src_buffer st)) =? 0 else false). split; [reflexivity|]. split; [reflexivity|]. split; [destruct (src_eoi st); reflexivity|].
    split; [exists d; assumption|]. intros n Hn. destruct (ready_consume Q Hr Hn) as (st1 & l & r & G & _). eauto.
  - intros T E p Hp. destruct (ready_asked Q Ho HR Hr Hp) as [[G _]|(st1 & r & w1 & r1 & d1 & e1 & G & _)]; [|eauto].
    right. destruct (ready_crashes Q Ho HR Hr Hp G) as (st1 & w1 & C). destruct (ready_crash Q Ho HR Hr Hp C) as (C1 & C2 & C3 & _). exists st1, w1. split; [assumption|]. split; [apply hp_crash; assumption|auto].
Qed.
Print Assumptions C81_returns.

(** At any time, if automatic filling is switched on, a call of [parse] which is repeated after [Retry] and I/O errors comes to a final
    answer. *)
Theorem C81_answers : forall W St I B (ds : data_source St I) (ops : buffer_ops I B) fits b0 R s data e (es : list (event W I)) st w w' rest,
  obeys ds -> delivers ds R -> R s data e -> lawful ops fits b0 -> fits 1 ->
  happen ds ops es (src_with_buffer s b0) w st w' -> all_fair fits es data w -> explain fits es data w rest w' ->
  forall T E (p : sparser W I T E) fuel, suits_w fits rest w' p -> 2 * length data + e + 2 <= fuel ->
    (exists st1 r w1 rest1, insist_w ds ops fuel p (src_set_autofill true st) w' = (Done (st1, r), w1) /\ ~ again r /\ explains fits (Asked p r) rest w' rest1 w1) \/
    (fst (insist_w ds ops fuel p (src_set_autofill true st) w') = Panicked /\ rest <> [] /\ fst (p w' (mkInput true rest)) = Panic).
Proof.
  intros W St I B ds ops fits b0 R s data e es st w w' rest Ho HR Hs (inv & view & room & Q & Hi & Hv) Hone Hh Hf Hx T E p fuel Hp Hfuel.
  destruct (use_steps Q Ho Hone HR Hh (@ready_new _ _ _ ds _ _ _ _ _ R s data e b0 Q Hi Hv Hone Hs) Hf) as (rest' & d & e' & H & Hr & Hd & He).
  destruct (C81_determined H Hx) as [-> _]. clear H.
  apply (insist_asked Q Ho HR Hr Hp). lia.
Qed.
Print Assumptions C81_answers.

(** Over a buffer that holds what is asked for (GrowingBuffer), parsers which work on a copy of the client's state, are firm, return and
    need some input are fair at any point. *)
Theorem C81_fair : forall W I (es : list (event W I)),
  Forall (fun ev => match ev with Asked p _ | Crashed p => forall rest w, suits_w (fun _ => True) rest w p | _ => True end) es ->
  forall rest w, all_fair (fun _ => True) es rest w.
Proof.
  intros W I es H. induction H as [|ev es H H' IH]; intros rest w; [exact Logic.I|]. split; [|intros; apply IH]. destruct ev; cbn; auto.
Qed.
Print Assumptions C81_fair.

(** The state in which a caught panic of the parser leaves a Source is the one of the model of caught panics (C50), on any machine where the
    numbers fit. *)
Theorem C81_caught : forall m W St I T E (ds : data_source St I) (p : sparser W I T E) w w', platform m ->
  (forall st st' : src St (fixed I), f_used (src_buffer st) <= f_populated (src_buffer st) <= length (f_mem (src_buffer st)) -> length (f_mem (src_buffer st')) <= w_alloc m ->
    src_parse_crash ds (fixed_ops I) p st w = Some (st', w') -> u_src_parse m (calm ds) (u_fixed_ops I m) (fun i => fst (p w i)) st = Unwinds st') /\
  (forall st st' : src St (growing I), g_used (src_buffer st) <= g_populated (src_buffer st) <= length (g_mem (src_buffer st)) -> length (g_mem (src_buffer st)) <= g_cap (src_buffer st) ->
    g_cap (src_buffer st') <= w_alloc m ->
    src_parse_crash ds (growing_ops I) p st w = Some (st', w') -> u_src_parse m (calm ds) (u_growing_ops I m) (fun i => fst (p w i)) st = Unwinds st').
Proof.
  intros m W St I T E ds p w w' P. split.
  - intros st st' Hi Hs H. apply (crash_caught ds p st w (same_fixed I m) (fixed_fit P I) Hi Hs H).
  - intros st st' [H1 H2] H3 Hs H. apply (crash_caught ds p st w (same_growing I m) (growing_fit P I) (conj H1 (conj H2 H3)) Hs H).
Qed.
Print Assumptions C81_caught.

(** * A case *)

(** A parser for one item, which adds it up in the client's state if it is less than 9. *)
Definition C81_item : sparser nat nat nat (error nat) := on_a_copy (fun w i => let (r, w) := satisfy_w false (fun x w => (Some (x <? 9), w)) w i in map_w (fun x w => (Some x, w + x)) r w).
Lemma C81_item_suits : forall rest w, suits_w (fun _ => True) rest w C81_item.
Proof.
  intros rest w. apply C79_suits; [apply k_map, k_satisfy| |exists 1; reflexivity]. intros [l [|x b]]; unfold satisfy_w; cbn -[Nat.ltb]; [intros F; discriminate F|]. destruct (x <? 9); discriminate.
Qed.
(** Two items. *)
Definition C81_pair : sparser nat nat nat (error nat) := on_a_copy (fun w i => let (r, w) := satisfy_w false (fun x w => (Some true, w + 1)) w i in then_w (fun e w => (Some e, w)) r (satisfy_w false (fun x w => (Some true, w + 1))) w).
Lemma C81_pair_suits : forall rest w, suits_w (fun _ => True) rest w C81_pair.
Proof.
  intros rest w. apply C79_suits; [apply k_then; apply k_satisfy| |exists 1; reflexivity]. intros [l [|x [|y b]]]; intros F; discriminate F.
Qed.

(** Parsing, reading, looking, consuming and filling by hand, with I/O errors in between. *)
Definition C81_session : list (event nat nat) :=
  [Asked C81_item (inl 1); Seen [] 0 false; Got 3 (IoErr 0); Got 3 (IoOk [2; 3; 4]); Acted (fun w => w + 100); Autofill false; Asked C81_pair (inr SRetry);
   Asked C81_pair (inr SRetry); Filled (IoOk 1); Asked C81_pair (inr SRetry); Reset; Filled (IoOk 2); Seen [5; 6; 7] 3 false; Consumed 1; Got 1 (IoOk [6]);
   Asked C81_item (inl 7); Autofill true; Asked C81_item (inr SRetry); Asked C81_item (inl 8); Asked C81_item (inr SRetry);
   Asked C81_item (inr (SParseError [9] EPlain)); Asked C81_item (inr (SParseError [9] EPlain)); Consumed 1; Asked C81_item (inr SRetry);
   Asked C81_item (inr SEndOfInput); Seen [] 0 true].
Example C81_case : let cs := [Some [1; 2]; None; Some [3; 4; 5]; Some [6; 7]; Some [8]; Some [9]] in
  (exists st, happen (read_data_source chunk_read) (growing_ops nat) C81_session (src_with_buffer cs (growing_with_limit 0 (fun _ => 0) 0)) 0 st 116) /\
  (forall w, all_fair (fun _ => True) C81_session (chunks_data cs) w).
Proof.
  cbv zeta. split.
  - eexists. unfold C81_session.
    repeat (eapply hps_cons;
      [first [eapply hp_parse; vm_compute; reflexivity | eapply hp_fill; vm_compute; reflexivity | eapply hp_read; vm_compute; reflexivity
             | eapply hp_consume; [vm_compute; reflexivity|cbn; lia|vm_compute; reflexivity] | eapply hp_see; vm_compute; reflexivity
             | apply hp_reset | apply hp_autofill | apply hp_act] | cbn beta]).
    apply hps_nil.
  - intros w. apply C81_fair. unfold C81_session. repeat (apply Forall_cons; [first [exact C81_item_suits|exact C81_pair_suits|exact Logic.I]|]). apply Forall_nil.
Qed.

(** A parser that counts its calls in the client's state and panics on an item less than 5. *)
Definition C81_bomb : sparser nat nat nat (error nat) := on_a_copy (fun w i => let (r, w) := satisfy_w false (fun x w => (Some true, w + 1)) w i in map_w (fun x w => (if x <? 5 then None else Some x, w + 10)) r w).
Lemma C81_bomb_suits : forall rest w, suits_w (fun _ => True) rest w C81_bomb.
Proof.
  intros rest w. apply C79_suits; [apply k_map, k_satisfy| |exists 1; reflexivity]. intros [l [|x b]]; unfold satisfy_w; cbn -[Nat.ltb]; [intros F; discriminate F|]. destruct (x <? 5); discriminate.
Qed.
(** The panics are caught; nothing is lost, and the session goes on. *)
Definition C81_crashes : list (event nat nat) :=
  [Crashed C81_bomb; Crashed C81_bomb; Asked C81_item (inl 1); Got 1 (IoOk [2]); Asked C81_bomb (inr SRetry); Asked C81_bomb (inl 7); Asked C81_bomb (inr SRetry); Crashed C81_bomb; Seen [3] 1 false;
   Consumed 1; Asked C81_bomb (inr SRetry); Asked C81_bomb (inr SEndOfInput)].
Example C81_case_crash : let cs := [Some [1; 2; 7]; Some [3]] in
  (exists st, happen (read_data_source chunk_read) (growing_ops nat) C81_crashes (src_with_buffer cs (growing_with_limit 0 (fun _ => 0) 0)) 0 st 45) /\
  (forall w, all_fair (fun _ => True) C81_crashes (chunks_data cs) w).
Proof.
  cbv zeta. split.
  - eexists. unfold C81_crashes.
    repeat (eapply hps_cons;
      [first [eapply hp_crash; vm_compute; reflexivity | eapply hp_parse; vm_compute; reflexivity | eapply hp_read; vm_compute; reflexivity
             | eapply hp_consume; [vm_compute; reflexivity|cbn; lia|vm_compute; reflexivity] | eapply hp_see; vm_compute; reflexivity] | cbn beta]).
    apply hps_nil.
  - intros w. apply C81_fair. unfold C81_crashes. repeat (apply Forall_cons; [first [exact C81_item_suits|exact C81_bomb_suits|exact Logic.I]|]). apply Forall_nil.
Qed.
