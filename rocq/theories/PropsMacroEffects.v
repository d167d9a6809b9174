(** C80: user code in a [parse!] block is run in the order of the text. *)
From Coq Require Import List Bool Arith Lia.
From Verif Require Import Base Parsers Combinators Buffer Stream StdIo SpecBase SpecBuffer SpecSafe SpecStream SimProofs SpecAnyBuffer Effects SpecEffects
  SpecKeep PropsAnyBuffer PropsKeep Macro SpecMacro MacroProofs PropsMacro PropsMacroStream MacroEffects SpecMacroEffects MacroEffectsProofs.
Import ListNotations.

Set Implicit Arguments.

(** An accepted block is one phrase, and does what the phrase says, to the world as well. *)
Theorem C80_meaning rc (Hrc : lawful rc) ts (Hne : ts <> []) c (Hc : expand_parse rc (Some ts) = Some c) :
  exists b, g_block rc plain True ts b /\ (forall b', g_block rc plain True ts b' -> b' = b) /\
    forall W I V E (m : meaning_w W I V E) rho w i r w', runs_block_w m b rho w i r w' <-> eval_w m c rho [i] w = (r, w').
Proof.
  destruct (sound_block Hrc _ _ _ Hc) as [[E _]|[b [Hb ->]]]; [congruence|]. exists b. split; [exact Hb|].
  split; [intros b' Hb'; exact (g_block_unique Hrc Hb' Hb)|]. intros W I V E m rho w i r w'.
  rewrite (emit_block_act m b rho [i] 0 w eq_refl). split.
  - apply (runs_block_act Hb).
  - intros H. pose proof (act_block_runs m Hb rho w i) as Hr. rewrite H in Hr. exact Hr.
Qed.
Print Assumptions C80_meaning.

(** The pieces of user code stand in the text in that order. *)
Theorem C80_text rc (Hrc : lawful rc) leaf trailing ts b (Hb : g_block rc leaf trailing ts b) :
  among (flat_map spelling (block_pieces b)) (flat_map tokens ts).
Proof. exact (block_text Hrc Hb). Qed.
Print Assumptions C80_text.

(** Whatever the user code does: the pieces which are run are among those of the text in their order (so none is run twice, none before one
    that stands in front of it); the last one ends as the block does; the ones before it ended with a value, an error or a request, so
    nothing is run after a panic.  Taking notes changes nothing. *)
Theorem C80_order rc (Hrc : lawful rc) ts (Hne : ts <> []) c (Hc : expand_parse rc (Some ts) = Some c) b (Hb : g_block rc plain True ts b) :
  forall W I V E (m : meaning_w W I V E) rho w i r w', eval_w m c rho [i] w = (r, w') ->
  exists p before, eval_w (noted m) c rho [i] (w, []) = (r, (w', before ++ [(p, end_of r)])) /\
    among (List.map fst (before ++ [(p, end_of r)])) (block_pieces b) /\
    Forall (fun x => snd x = Well \/ snd x = Badly \/ snd x = Asking) before.
Proof.
  intros W I V E m rho w i r w' Hr. destruct (sound_block Hrc _ _ _ Hc) as [[F _]|[b' [Hb' ->]]]; [congruence|].
  rewrite (g_block_unique Hrc Hb Hb') in *. clear b Hb Hc.
  rewrite (emit_block_act m b' rho [i] 0 w eq_refl) in Hr. rewrite (emit_block_act (noted m) b' rho [i] 0 (w, []) eq_refl).
  destruct (@act_block_noted W I V E m true true ltac:(discriminate) b' ltac:(discriminate) rho w i [] ltac:(discriminate)) as [_ [new [-> [Ha [[p [before [-> Hk]]] _]]]]].
  rewrite Hr in *. cbn in *. exists p, before. repeat split; auto. eapply Forall_impl; [|exact Hk].
  intros [q x] [H|[[_ H]|[_ [_ H]]]]; cbn in *; auto.
Qed.
Print Assumptions C80_order.

(** While more input may come, nothing is run after a request. *)
Theorem C80_waits rc (Hrc : lawful rc) ts (Hne : ts <> []) c (Hc : expand_parse rc (Some ts) = Some c) :
  forall W I V E (m : meaning_w W I V E) rho w b, terms_w m (fun p => forall w, well_behaved (fun i => fst (p w i))) ->
  exists r w' p before, eval_w (noted m) c rho [mkInput false b] (w, []) = (r, (w', before ++ [(p, end_of r)])) /\
    Forall (fun x => snd x = Well \/ snd x = Badly) before.
Proof.
  intros W I V E m rho w s Hm. destruct (sound_block Hrc _ _ _ Hc) as [[F _]|[b [Hb ->]]]; [congruence|]. clear Hc.
  rewrite (emit_block_act (noted m) b rho [mkInput false s] 0 (w, []) eq_refl).
  assert (Hk : terms_w m (@mode_kept W I V E)).
  { assert (A : forall p : sparser W I V E, (forall w, well_behaved (fun i => fst (p w i))) -> mode_kept p).
    { intros p Hp w0 i j v Hd. specialize (Hp w0 i). cbn in Hp. rewrite Hd in Hp. apply Hp. }
    split; intros; apply A, Hm. }
  destruct (@act_block_noted W I V E m true false (fun _ => Hk) b ltac:(discriminate) rho w (mkInput false s) [] ltac:(reflexivity)) as [_ [new [-> [Ha [[p [before [-> Hf]]] _]]]]].
  eexists _, _, p, before. split; [reflexivity|]. eapply Forall_impl; [|exact Hf].
  intros [q x] [H|[[_ H]|[_ [H _]]]]; cbn in *; auto. discriminate.
Qed.
Print Assumptions C80_waits.

(** Without alternatives all pieces before the last that is run ended well, and all of them are run, once each, if the block succeeds. *)
Theorem C80_straight rc (Hrc : lawful rc) ts (Hne : ts <> []) c (Hc : expand_parse rc (Some ts) = Some c) b (Hb : g_block rc plain True ts b) :
  straight_block b -> forall W I V E (m : meaning_w W I V E) rho w i r w', eval_w m c rho [i] w = (r, w') ->
  exists new rest, eval_w (noted m) c rho [i] (w, []) = (r, (w', new)) /\ block_pieces b = List.map fst new ++ rest /\
    match r with
    | Data _ _ => rest = [] /\ Forall (fun x => snd x = Well) new
    | _ => exists p before, new = before ++ [(p, end_of r)] /\ Forall (fun x => snd x = Well) before
    end.
Proof.
  intros Hst W I V E m rho w i r w' Hr. destruct (sound_block Hrc _ _ _ Hc) as [[F _]|[b' [Hb' ->]]]; [congruence|].
  rewrite (g_block_unique Hrc Hb Hb') in *. clear b Hb Hc.
  rewrite (emit_block_act m b' rho [i] 0 w eq_refl) in Hr. rewrite (emit_block_act (noted m) b' rho [i] 0 (w, []) eq_refl).
  destruct (@act_block_noted W I V E m false true ltac:(discriminate) b' (fun _ => Hst) rho w i [] ltac:(discriminate)) as [_ [new [-> [_ [Hk Hs]]]]].
  destruct (Hs eq_refl) as [rest [Hp Hw]]. rewrite Hr in *. cbn in *. exists new, rest. repeat split; auto.
  assert (G : exists p before, new = before ++ [(p, end_of r)] /\ Forall (fun x => snd x = Well) before).
  { destruct Hk as [p [before [-> Hf]]]. exists p, before. split; [reflexivity|]. eapply Forall_impl; [|exact Hf].
    intros [q x] [H|[[H _]|[H _]]]; cbn in *; congruence. }
  destruct r as [j v| | | |]; auto. split; [auto|]. destruct G as [p [before [-> Hf]]]. apply Forall_app. split; [exact Hf|]. repeat constructor.
Qed.
Print Assumptions C80_straight.

(** If the answers of the user code do not depend on the world, the block is the one without effects (C40, C55). *)
Theorem C80_steady W I V E (m : meaning_w W I V E) (m0 : @meaning I V E) : steady m m0 ->
  forall c rho ins w, fst (eval_w m c rho ins w) = eval m0 c rho ins.
Proof. intros H. apply eval_steady, H. Qed.
Print Assumptions C80_steady.

(** With user code fit for streams (C79) the block is. *)
Theorem C80_keeping rc (Hrc : lawful rc) ts (Hne : ts <> []) c (Hc : expand_parse rc (Some ts) = Some c) :
  forall W I V E (m : meaning_w W I V E) rho, terms_w m keeping -> keeping (fun w i => eval_w m c rho [i] w).
Proof.
  intros W I V E m rho Hm. destruct (sound_block Hrc _ _ _ Hc) as [[F _]|[b [Hb ->]]]; [congruence|].
  apply k_ext with (act_block m b rho); [apply act_block_keeping, Hm|]. intros w i. symmetry. apply emit_block_act. reflexivity.
Qed.
Print Assumptions C80_keeping.

(** So programs which run blocks on a copy of the world over a Source get the answers, and leave the world, which they would over the whole
    data at once. *)
Theorem C80_stream rc (Hrc : lawful rc) : forall W St I B V E (ds : data_source St I) (ops : buffer_ops I B) b0 R s data e (c : work W I V E) fuel w,
  obeys ds -> delivers ds R -> R s data e -> SpecAnyBuffer.lawful ops (fun _ => True) b0 -> block_work rc c -> 2 * length data + e + 2 <= fuel ->
  source_work ds ops fuel c (src_with_buffer s b0) w = slice_work c (slice_new data) w.
Proof.
  intros W St I B V E ds ops b0 R s data e c fuel w Ho Hd Hs Hl Hc Hf. eapply C79_answers; eauto; [exact Logic.I|].
  generalize (slice_new data). generalize w. clear Hs Hf w. induction Hc as [|f c Hc IH|ts m c rho k Hne Hx Hm Hi Hk IH]; intros w ss.
  - apply ws_finish.
  - apply ws_change, IH.
  - apply ws_parse; [|intros; apply IH]. apply C79_suits.
    + eapply C80_keeping; eauto. split; intros; apply Hm.
    + intros i. destruct (sound_block Hrc _ _ _ Hx) as [[F _]|[b [Hb ->]]]; [congruence|]. rewrite (emit_block_act m b rho [i] 0 w eq_refl).
      apply act_block_ends. split; intros; apply Hm.
    + apply Hi.
Qed.
Print Assumptions C80_stream.

(** * Cases *)

(** User code which notes its names in the world; [21] reads items below 5, [22] reads 0, the other functions read any item; the expression
    [ret 99] panics. *)
Definition logging : meaning_w (list nat) nat nat (error nat) := {|
  w_value := fun rho e w => match e with [Ident x] => (if x =? 99 then None else Some (lookup x rho), w ++ [x]) | _ => (Some 0, w) end;
  w_error := fun _ _ w => (Some Unexpected, w ++ [98]);
  w_inline := fun _ s _ => satisfy_w false (fun _ w => (Some true, w ++ [s]));
  w_call := fun _ f _ => satisfy_w false (fun x w => (Some (if f =? 21 then x <? 5 else if f =? 22 then x =? 0 else true), w ++ [f])) |}.

Lemma logging_terms : terms_w logging (fun p => keeping p /\ forall w i, fst (p w i) <> NoFuel).
Proof.
  split; intros rho f ps; (split; [apply k_satisfy|]); intros w [l [|x b]]; unfold satisfy_w; cbn -[Nat.ltb]; try (intros F; discriminate F).
  destruct (if f =? 21 then x <? 5 else if f =? 22 then x =? 0 else true); discriminate.
Qed.

(** The block of C40 on four inputs: both alternatives, an error, a request. *)
Example C80_case : exists c, expand_parse toy (Some program) = Some c /\ g_block toy plain True program program_block /\
  block_pieces program_block = [PCall 20 []; PCall 21 [[Ident 10]]; PCall 22 []; PCall 23 []; PCall 24 []; PCall 25 []; PValue [Ident 11]; PValue [Ident 10]] /\
  eval_w logging c [] [mkInput false [7; 3; 0; 6; 1]] [] = (Data (mkInput false [1]) 7, [20; 21; 22; 25; 11; 10]) /\
  eval_w logging c [] [mkInput false [7; 3; 1; 6; 1]] [] = (Data (mkInput false [1]) 7, [20; 21; 22; 23; 24; 25; 11; 10]) /\
  eval_w logging c [] [mkInput false [7; 8]] [] = (Incomplete 1, [20; 21; 23]) /\
  eval_w (noted logging) c [] [mkInput false [7; 3; 1; 6; 1]] ([], []) =
    (Data (mkInput false [1]) 7, ([20; 21; 22; 23; 24; 25; 11; 10],
      [(PCall 20 [], Well); (PCall 21 [[Ident 10]], Well); (PCall 22 [], Badly); (PCall 23 [], Well); (PCall 24 [], Well); (PCall 25 [], Well);
       (PValue [Ident 11], Well); (PValue [Ident 10], Well)])).
Proof. eexists. split; [vm_compute; reflexivity|]. split; [apply program_derived|]. repeat split; vm_compute; reflexivity. Qed.

(** A block without alternatives in which an expression panics: [f20(); ret 99; f21()]. *)
Example C80_straight_case : let ts := call 20 [] ++ Semi :: [Ident kw_ret; Ident 99; Semi] ++ call 21 [] in
  let b := BDo (ENamed 20 []) (BDo (ERet [Ident 99]) (BLast (ENamed 21 []))) in
  exists c, expand_parse toy (Some ts) = Some c /\ g_block toy plain True ts b /\ straight_block b /\
  eval_w logging c [] [mkInput false [7; 3]] [] = (Panic, [20; 99]).
Proof.
  eexists. split; [vm_compute; reflexivity|]. split; [|repeat split; vm_compute; reflexivity].
  apply (@g_do toy plain True (call 20 [])); [apply g_expr_alt, named_alt; [discriminate|discriminate|reflexivity]|].
  apply (@g_do toy plain True [Ident kw_ret; Ident 99]).
  - apply g_expr_alt, g_alt_skip, g_skip_term, g_ret; [apply atom_plain; reflexivity|reflexivity].
  - apply g_last, g_expr_alt, named_alt; [discriminate|discriminate|reflexivity].
Qed.

(** Answers which do not depend on the world: those of [logging] do not but for the panic. *)
Example C80_steady_case : exists m m0, @steady (list nat) nat nat (error nat) m m0 /\ forall rho e w, snd (w_value m rho e w) <> w.
Proof.
  exists (mkMeaningW (fun rho e w => (Some (length e), 1 :: w)) (fun _ _ w => (Some EPlain, w)) (fun _ _ _ => lifted any)
    (fun _ f _ => fun w i => (token true Nat.eqb f i, f :: w))).
  exists (mkMeaning (fun _ e => length e) (fun _ _ => EPlain) (fun _ _ _ => any) (fun _ f _ => token true Nat.eqb f)).
  split; [repeat split|]. intros rho e w H. apply (f_equal (@length nat)) in H. cbn in H. lia.
Qed.

(** The block over a stream, in all ways to cut the data. *)
Fixpoint C80_times (n : nat) (p : sparser (list nat) nat nat (error nat)) : work (list nat) nat nat (error nat) :=
  match n with O => Finish | S n => Parse (on_a_copy p) (fun _ _ => C80_times n p) end.
Example C80_stream_case : exists c, expand_parse toy (Some program) = Some c /\
  let p := fun w i => eval_w logging c [] [i] w in
  (forall n cs, ~ In (Some []) cs ->
   source_work (read_data_source chunk_read) (growing_ops nat) (2 * length (chunks_data cs) + chunks_errors cs + 2) (C80_times n p)
     (src_with_buffer cs (growing_with_limit 0 (fun _ => 0) 0)) [] = slice_work (C80_times n p) (slice_new (chunks_data cs)) []) /\
  slice_work (C80_times 3 p) (slice_new [7; 3; 0; 6; 7; 3; 1; 6; 9]) [] =
    Done ([inl 7; inl 7; inr (SIncomplete 2)], [20; 21; 22; 25; 11; 10; 20; 21; 22; 23; 24; 25; 11; 10]).
Proof.
  eexists. split; [vm_compute; reflexivity|]. cbv zeta. split; [|vm_compute; reflexivity]. intros n cs Hcs.
  eapply (C80_stream toy_lawful (R := schedule)); [apply chunk_obeys|apply chunk_delivers|repeat split; auto|apply tight_lawful, C63_growing| |lia].
  induction n as [|n IH]; cbn [C80_times]; [apply bw_finish|]. apply bw_parse with (ts := program).
  - discriminate.
  - vm_compute. reflexivity.
  - apply logging_terms.
  - intros w. exists 1. reflexivity.
  - auto.
Qed.

(** What a rejected alternative did is not undone. *)
Theorem C80_rollback_refuted : ~ (forall rc, lawful rc -> forall ts c a b, g_block rc plain True ts (BLast (EAlt a b)) -> expand_parse rc (Some ts) = Some c ->
  forall W I V E (m : meaning_w W I V E) rho w i s e w1 r w2, runs_w m a rho w i (Error s e) w1 -> runs_w m b rho w i r w2 ->
  eval_w m c rho [i] w = (r, w2)).
Proof.
  intros H. specialize (H toy toy_lawful (call 21 [] ++ Lt :: Bar :: Gt :: call 23 [])).
  set (c := match expand_parse toy (Some (call 21 [] ++ Lt :: Bar :: Gt :: call 23 [])) with Some c => c | None => CInput 0 end).
  specialize (H c (ENamed 21 []) (ENamed 23 [])).
  assert (A : eval_w logging c [] [mkInput false [9]] [] = (Data (mkInput false []) 9, [23])).
  { apply H with (s := [9]) (e := EPlain) (w1 := [21]).
    - apply g_last, g_expr_alt. apply (@g_alt_alt toy plain (call 21 [])).
      + apply g_skip_term, g_named; [discriminate|discriminate|reflexivity].
      + apply named_alt; [discriminate|discriminate|reflexivity].
    - vm_compute. reflexivity.
    - apply rw_named. vm_compute. reflexivity.
    - apply rw_named. vm_compute. reflexivity. }
  vm_compute in A. discriminate.
Qed.
Print Assumptions C80_rollback_refuted.
