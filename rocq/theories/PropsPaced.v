(** C64: a Source driven by hand. *)
From Coq Require Import List Bool Arith Lia.
From Verif Require Import Base Parsers Combinators Buffer Stream SpecBase SpecBuffer SpecSafe SpecStream SpecAnyBuffer SpecPaced
  SafeProofs StableProofs BufferProofs StreamProofs SimProofs HistoryProofs ReadsProofs PacedProofs PropsSafe PropsBuffer PropsStream PropsAnyBuffer.
Import ListNotations.

Set Implicit Arguments.

(** * Automatic filling switched off; over any buffer and any source whatsoever *)

(** [parse] leaves the source alone, and so fails with none of its errors. *)
Theorem C64_off : forall St I B T E (ds : data_source St I) (ops : buffer_ops I B) (p : parser I T E) st st' r, src_auto st = false ->
  src_parse ds ops p st = Done (st', r) -> src_source st' = src_source st /\ src_auto st' = false /\ forall x, r <> inr (SIoError x).
Proof.
  intros St I B T E ds ops p st st' r Ha H. assert (Hia : src_incomplete st && src_auto st = false) by (rewrite Ha; apply andb_false_r).
  split; [exact (parse_quiet _ _ _ _ Hia H)|]. unfold src_parse in H. rewrite Hia in H. cbn [run_bind] in H.
  destruct (src_is_empty ops st) as [[]| | |]; try discriminate; cbn [run_bind] in H; [inversion H; subst; split; [assumption|discriminate]|].
  destruct (op_deref ops (src_buffer st)) as [data| | |]; try discriminate. cbn [run_bind] in H.
  destruct (p (mkInput (src_eoi st) data)) as [j v|b e|n| |]; try discriminate; destruct (op_len ops (src_buffer st)) as [l| | |]; try discriminate; cbn [run_bind] in H.
  - destruct (usize_sub l (length (buf j))) as [k| | |]; try discriminate; cbn [run_bind] in H. destruct (op_consume ops (src_buffer st) k); try discriminate. inversion H; subst. split; [assumption|discriminate].
  - destruct (usize_sub l (length b)) as [k| | |]; try discriminate; cbn [run_bind] in H. destruct (op_consume ops (src_buffer st) k); try discriminate. inversion H; subst. split; [assumption|discriminate].
  - destruct (src_eoi st); inversion H; subst; (split; [assumption|discriminate]).
Qed.
(** So [Retry] comes again and again until [fill] is called. *)
Theorem C64_stalls : forall St I B T E (ds : data_source St I) (ops : buffer_ops I B) (p : parser I T E) st st', src_auto st = false ->
  src_parse ds ops p st = Done (st', inr SRetry) -> src_parse ds ops p st' = Done (st', inr SRetry) /\ forall fuel, insist ds ops fuel p st = Stuck.
Proof.
  intros St I B T E ds ops p st st' Ha H.
  assert (H' : src_parse ds ops p st' = Done (st', inr SRetry)).
  { unfold src_parse in H |- *. rewrite Ha, andb_false_r in H. cbn [run_bind] in H.
    destruct (src_is_empty ops st) as [[]| | |] eqn:Hem; try discriminate; cbn [run_bind] in H.
    destruct (op_deref ops (src_buffer st)) as [data| | |] eqn:Hd; try discriminate. cbn [run_bind] in H.
    destruct (p (mkInput (src_eoi st) data)) as [j v|b e|n| |] eqn:Hp; try discriminate; destruct (op_len ops (src_buffer st)) as [l| | |] eqn:Hl; try discriminate; cbn [run_bind] in H.
    - destruct (usize_sub l (length (buf j))) as [k| | |]; try discriminate; cbn [run_bind] in H. destruct (op_consume ops (src_buffer st) k); discriminate.
    - destruct (usize_sub l (length b)) as [k| | |]; try discriminate; cbn [run_bind] in H. destruct (op_consume ops (src_buffer st) k); discriminate.
    - destruct (src_eoi st) eqn:He; inversion H; subst. cbn [src_incomplete src_auto andb src_buffer src_eoi src_source]. rewrite Ha. cbn [run_bind src_incomplete src_auto andb src_buffer src_eoi src_source].
      unfold src_is_empty, src_len in Hem |- *. cbn [src_eoi src_buffer]. cbn [run_bind]. rewrite Hd. cbn [run_bind]. rewrite Hp, Hl. reflexivity. }
  split; [assumption|]. intros [|fuel]; [reflexivity|]. cbn [insist]. rewrite H. cbn [run_bind]. induction fuel as [|fuel IH]; [reflexivity|]. cbn [insist]. rewrite H'. cbn [run_bind]. exact IH.
Qed.
(** A call which fills is a call of [fill] and one which does not. *)
Theorem C64_splits : forall St I B T E (ds : data_source St I) (ops : buffer_ops I B) (p : parser I T E) st, src_auto st = true -> src_incomplete st = true ->
  src_parse ds ops p st =
  let! (st1, filled) := src_fill ds ops (src_set_autofill false st) in
  match filled with
  | IoErr x => Done (src_set_autofill true st1, inr (SIoError x))
  | IoOk _ => let! (st2, r) := src_parse ds ops p st1 in Done (src_set_autofill true st2, r)
  end.
Proof.
  intros St I B T E ds ops p [s b q i eoi a] Ha Hi. cbn in Ha, Hi. subst i a. unfold src_parse at 1. cbn [src_incomplete src_auto andb].
  unfold src_fill, fill_requested, src_set_autofill. cbn [src_buffer src_source src_request src_incomplete src_eoi src_auto].
  destruct (op_len ops b) as [l| | |] eqn:Hl0; cbn [run_bind]; try reflexivity.
  assert (Tail : forall (b : B) (s : St) e, src_eoi (mkSrc s b q false e true) = e ->
    (let! empty := src_is_empty ops (mkSrc s b q false e true) in
     if empty then Done (mkSrc s b q false e true, inr SEndOfInput)
     else let! data := op_deref ops b in
       match p (mkInput e data) with
       | Data remainder v => let! l := op_len ops b in let! n := usize_sub l (length (buf remainder)) in let! b' := op_consume ops b n in Done (mkSrc s b' q false e true, inl v)
       | Error remainder e0 => let! l := op_len ops b in let! n := usize_sub l (length remainder) in let! b' := op_consume ops b n in Done (mkSrc s b' q false e true, inr (SParseError remainder e0))
       | Incomplete n => let! l := op_len ops b in if e then Done (mkSrc s b (l + n) false e true, inr (SIncomplete (l + n))) else Done (mkSrc s b (l + n) true e true, inr SRetry)
       | Panic => Panicked
       | NoFuel => Stuck
       end) =
    (let! (st2, r) := src_parse ds ops p (mkSrc s b q false e false) in Done (src_set_autofill true st2, r))).
  { intros b1 s1 e _. unfold src_parse, src_is_empty, src_len, src_set_autofill. cbn [src_incomplete src_auto andb run_bind src_eoi src_buffer src_source src_request src_with].
    assert (Hem : forall X Y (x y : run X) (f : X -> run Y) c, run_bind (if c : bool then x else y) f = if c then run_bind x f else run_bind y f) by (intros; destruct c; reflexivity).
    destruct e; [destruct (op_len ops b1) as [l1| | |]; cbn [run_bind]; try reflexivity; destruct (l1 =? 0); [reflexivity|]|cbn [run_bind]];
      (destruct (op_deref ops b1) as [data| | |]; cbn [run_bind]; try reflexivity);
      match goal with |- context [p ?x] => destruct (p x) as [j v|r0 e0|n| |] end; try reflexivity;
      destruct (op_len ops b1) as [l2| | |]; cbn [run_bind]; try reflexivity;
      match goal with |- context [usize_sub ?x ?y] => destruct (usize_sub x y) as [n| | |] end; cbn [run_bind]; try reflexivity;
      destruct (op_consume ops b1 n); reflexivity. }
  destruct (l <? Nat.max 1 q).
  - destruct (usize_sub (Nat.max 1 q) l) as [diff| | |]; cbn [run_bind]; try reflexivity. destruct (op_request_space ops b diff) as [b1| | |]; cbn [run_bind]; try reflexivity.
    destruct (fill_loop ds ops (S diff) (Nat.max 1 q) 0 b1 s) as [[[b2 s2] r]| | |]; cbn [run_bind]; try reflexivity. destruct r as [m|x]; cbn [src_with src_buffer src_source src_request src_incomplete src_eoi src_auto]; [|reflexivity].
    destruct (op_len ops b2) as [l2| | |]; cbn [run_bind]; try reflexivity. apply (Tail b2 s2 _ eq_refl).
  - cbn [src_buffer src_source src_request src_incomplete src_eoi src_auto run_bind]. rewrite Hl0. cbn [run_bind]. apply (Tail b s _ eq_refl).
Qed.
Print Assumptions C64_off.
Print Assumptions C64_stalls.
Print Assumptions C64_splits.

(** * Any execution over a buffer that keeps the contract *)

Lemma ready_new : forall St I B (ds : data_source St I) (ops : buffer_ops I B) inv (view : B -> list I) room fits (R : St -> list I -> nat -> Prop) (s : St) data e b0,
  queue_like ops inv view room fits -> inv b0 -> view b0 = [] -> fits 1 -> R s data e -> ready inv view fits R (src_with_buffer s b0) data data e.
Proof.
  intros St I B ds ops inv view room fits R s data e b0 Q Hi Hv Hone Hs.
  assert (F : fits (Nat.min (Nat.max 1 0) (length data))) by (eapply (q_fits Q); [|exact Hone]; lia).
  split; cbn [src_with_buffer src_buffer src_source src_request src_incomplete src_eoi]; auto; [rewrite Hv; reflexivity|discriminate].
Qed.

(** The answers so far are those over the slice: whatever has been called in between, the same program over the slice has come to the
    same point with the same answers.  Any further call of [fill] or [parse] succeeds; [parse] panics just if the program panics
    over the slice.  And from there the program can be finished, with the right answers: by switching automatic filling on, or off and
    filling by hand. *)
Theorem C64_paced : forall St I B T E (ds : data_source St I) (ops : buffer_ops I B) fits b0 R s data e (c c' : script I T E) rs st, obeys ds -> delivers ds R -> R s data e ->
  lawful ops fits b0 -> fits 1 -> script_suits fits (slice_new data) c -> paced ds ops c (src_with_buffer s b0) rs c' st ->
  exists s', sliced c (slice_new data) rs c' s' /\
    (c' = SpecStream.Stop -> on_slice c (slice_new data) = Done rs) /\
    (exists st1 r, src_fill ds ops st = Done (st1, r)) /\
    (forall p k, c' = Next p k -> match src_parse ds ops p st with Done _ => True | Panicked => on_slice c (slice_new data) = Panicked | _ => False end) /\
    (forall fuel, 2 * length data + e + 2 <= fuel ->
       on_source ds ops fuel c' (src_set_autofill true st) = on_slice c' s' /\
       on_source_by_hand ds ops fuel c' (src_set_autofill false st) = on_slice c' s').
Proof.
  intros St I B T E ds ops fits b0 R s data e c c' rs st Ho HR Hs (inv & view & room & Q & Hi & Hv) Hone Hc Hp.
  pose proof (@ready_new _ _ _ ds _ _ _ _ _ R s data e b0 Q Hi Hv Hone Hs) as Hr.
  destruct (paced_spec Q Ho HR Hp (s := slice_new data) (d := data) (e := e)) as (s' & d' & e' & H1 & H2 & H3 & H4 & H5 & H6); [cbn; lia|exact Hr|exact Hc|].
  exists s'. split; [assumption|]. pose proof (sliced_run H1) as Hrun. split; [|split; [|split]].
  - intros ->. rewrite Hrun. cbn [on_slice run_bind]. rewrite app_nil_r. reflexivity.
  - destruct (ready_fill Q Ho HR H3) as (st1 & r & _ & _ & G & _). eauto.
  - intros p k ->. inversion H4 as [|s1 p1 k1 Hsu Hk]; subst. fold (rest_of s') in Hsu.
    destruct (ready_parse Q Ho HR H3 Hsu) as [(st2 & r2 & d2 & e2 & G1 & _)|[(G0 & st2 & d2 & G1 & _)|[(G1 & G2 & G3)|(G0 & st2 & d2 & out & rest' & out' & G1 & _)]]]; [rewrite G1; exact Logic.I|rewrite G1; exact Logic.I| |rewrite G1; exact Logic.I].
    rewrite G3, Hrun. cbn [on_slice].
    destruct (slice_parse_spec s' H2 (su_well_behaved Hsu)) as [[K1 K2]|[_ [[K1 K2]|[[K1 K2]|(s1 & out2 & K1 & K2 & K3 & K4)]]]]; [contradiction|rewrite K2; reflexivity|congruence|rewrite G2 in K4; contradiction].
  - intros fuel Hf. split.
    + eapply (on_source_spec Q Ho HR H2 (ready_stands H3) H4). lia.
    + eapply (on_source_by_hand_spec Q Ho HR); [exact H2|apply ready_autofill; exact H3|reflexivity|exact H4|lia].
Qed.
Print Assumptions C64_paced.

(** In particular all by hand from the start, with one call more than there are items and errors. *)
Theorem C64_by_hand : forall St I B T E (ds : data_source St I) (ops : buffer_ops I B) fits b0 R s data e (c : script I T E) fuel, obeys ds -> delivers ds R -> R s data e ->
  lawful ops fits b0 -> fits 1 -> script_suits fits (slice_new data) c -> length data + e + 2 <= fuel ->
  on_source_by_hand ds ops fuel c (src_set_autofill false (src_with_buffer s b0)) = on_slice c (slice_new data).
Proof.
  intros St I B T E ds ops fits b0 R s data e c fuel Ho HR Hs (inv & view & room & Q & Hi & Hv) Hone Hc Hf.
  pose proof (@ready_new _ _ _ ds _ _ _ _ _ R s data e b0 Q Hi Hv Hone Hs) as Hr.
  eapply (on_source_by_hand_spec Q Ho HR) with (d := data) (e := e); [cbn; lia|apply ready_autofill; exact Hr|reflexivity|exact Hc|lia].
Qed.
Print Assumptions C64_by_hand.
(** Hence it makes no difference to the answers who fills. *)
Theorem C64_either : forall St I B T E (ds : data_source St I) (ops : buffer_ops I B) fits b0 R s data e (c : script I T E) fuel, obeys ds -> delivers ds R -> R s data e ->
  lawful ops fits b0 -> fits 1 -> script_suits fits (slice_new data) c -> 2 * length data + e + 2 <= fuel ->
  on_source_by_hand ds ops fuel c (src_set_autofill false (src_with_buffer s b0)) = on_source ds ops fuel c (src_with_buffer s b0).
Proof.
  intros St I B T E ds ops fits b0 R s data e c fuel Ho HR Hs L Hone Hc Hf.
  rewrite (@C64_by_hand _ _ _ _ _ ds ops fits b0 R s data e c fuel Ho HR Hs L Hone Hc) by lia.
  symmetry. exact (proj1 (@C63_answers _ _ _ _ _ ds ops fits b0 R s data e c fuel Ho HR Hs L Hone Hc Hf)).
Qed.
Print Assumptions C64_either.

(** * Cases *)

(** Without filling [any] is retried; filled by hand it is not, though the first attempt fails. *)
Example C64_case : let st := src_set_autofill false (src_with_buffer [None; Some [7; 8]] paged_new) in
  let any := any : parser nat nat (error nat) in
  (exists st', src_parse demo_source (paged_ops nat 2 4) any st = Done (st', inr SRetry) /\ src_source st' = [None; Some [7; 8]]) /\
  on_source_by_hand demo_source (paged_ops nat 2 4) 5 (forever any 3) st = Done [inl 7; inl 8; inr SEndOfInput].
Proof. split; [eexists; split|]; vm_compute; reflexivity. Qed.
(** An execution which does a bit of everything. *)
Example C64_case_paced : exists st, let any := any : parser nat nat (error nat) in
  paced demo_source (paged_ops nat 2 4) (forever any 3) (src_with_buffer [Some [7]; None; Some [8]] paged_new) [inl 7; inl 8] (forever any 1) st.
Proof.
  eexists. cbn zeta. cbn [forever]. apply pc_reset. eapply pc_again; [vm_compute; reflexivity|left; reflexivity|]. eapply pc_fill; [vm_compute; reflexivity|].
  eapply (fun st1 rs c' st' H => @pc_answer _ _ _ _ _ demo_source (paged_ops nat 2 4) any _ _ st1 (inl 7) rs c' st' H); [vm_compute; reflexivity|intros [H|[x H]]; discriminate|].
  eapply pc_again; [vm_compute; reflexivity|left; reflexivity|]. apply pc_autofill with (v := true).
  eapply pc_again; [vm_compute; reflexivity|right; eexists; reflexivity|]. apply pc_autofill with (v := false). eapply pc_fill; [vm_compute; reflexivity|].
  eapply (fun st1 rs c' st' H => @pc_answer _ _ _ _ _ demo_source (paged_ops nat 2 4) any _ _ st1 (inl 8) rs c' st' H); [vm_compute; reflexivity|intros [H|[x H]]; discriminate|].
  apply pc_now.
Qed.
(** The hypotheses: [any], over pages of any size in a buffer of any size. *)
Example C64_case_any : forall n page size cs rs c' st, let any := any : parser nat nat (error nat) in 0 < page -> 0 < size -> ~ In (Some []) cs ->
  paced demo_source (paged_ops nat page size) (forever any n) (src_with_buffer cs paged_new) rs c' st -> c' = SpecStream.Stop -> on_slice (forever any n) (slice_new (chunks_data cs)) = Done rs.
Proof.
  intros n page size cs rs c' st a Hp Hs Hcs H Hc'. destruct (@C63_paged nat page size Hp) as [L _].
  assert (Hss : script_suits (fun m => m <= size) (slice_new (chunks_data cs)) (forever a n)).
  { generalize (slice_new (chunks_data cs)). clear - Hs. intros s. revert s. induction n as [|n IH]; intros s; [apply ss_stop|]. apply ss_next; [|intros; apply IH].
    apply C31_safe_suits; [apply s_any|intros [l [|x b]]; discriminate|exists 1; reflexivity|].
    intros [|x b] c m E H; inversion H; subst. cbn [length Nat.add]. lia. }
  destruct (@C64_paced _ _ _ _ _ _ _ _ _ schedule cs _ (chunks_errors cs) _ _ _ _ (@chunk_obeys nat) (@chunk_delivers nat) (conj Hcs (conj eq_refl eq_refl)) (tight_lawful L) Hs Hss H) as (s' & _ & G & _).
  exact (G Hc').
Qed.
