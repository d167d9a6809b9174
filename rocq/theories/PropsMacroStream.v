(** Property C55: what [parse!] makes of well-behaved terms is well-behaved, and so fit for streams. *)
From Coq Require Import List Bool Arith Lia.
From Verif Require Import Base Buffer Parsers Combinators SpecBase SpecBuffer SpecSafe SafeProofs StableProofs Stream SpecStream SimProofs BufferProofs
  PropsSafe PropsBuffer PropsStream SpecAnyBuffer PropsAnyBuffer Macro SpecMacro MacroProofs PropsMacro.
Import ListNotations.

Set Implicit Arguments.

(** The terms which call user code, or are user code: all of them, whatever the variables are bound to, satisfy [P]. *)
Definition terms {I V E} (m : @meaning I V E) (P : parser I V E -> Prop) : Prop :=
  (forall rho s e, P (m_inline m rho s e)) /\ (forall rho f ps, P (m_call m rho f ps)).

Lemma emit_scope I V E (m : @meaning I V E) e : forall rho ins k x, nth_error ins k = Some x ->
  eval m (emit k e) rho ins = eval m (emit 0 e) rho [x].
Proof.
  induction e as [a IHa b IHb|a IHa b IHb|a IHa b IHb|v|t u v|v|t u v|s v|f ps]; intros rho ins k x Hk; cbn [emit eval];
    try (unfold with_input; rewrite Hk; reflexivity).
  - rewrite (IHa _ _ _ _ Hk). destruct (eval m (emit 0 a) rho [x]) as [j v|r e|n| |]; cbn [bind]; auto.
    rewrite (IHb (bound BUnder v rho) (j :: ins) 0 j eq_refl), (IHb (bound BUnder v rho) [j; x] 0 j eq_refl). reflexivity.
  - unfold with_input. rewrite Hk. cbn [nth_error]. unfold or_.
    rewrite (IHa rho (x :: ins) 0 x eq_refl), (IHa rho [x; x] 0 x eq_refl), (IHb rho (x :: ins) 0 x eq_refl), (IHb rho [x; x] 0 x eq_refl). reflexivity.
  - rewrite (IHa _ _ _ _ Hk). destruct (eval m (emit 0 a) rho [x]) as [j v|r e|n| |]; cbn [bind]; auto.
    rewrite (IHb rho (j :: ins) 0 j eq_refl), (IHb rho [j; x] 0 j eq_refl). reflexivity.
Qed.
Lemma emit_block_scope I V E (m : @meaning I V E) b : forall rho ins k x, nth_error ins k = Some x ->
  eval m (emit_block k b) rho ins = eval m (emit_block 0 b) rho [x].
Proof.
  induction b as [e|e b IH|v e b IH]; intros rho ins k x Hk; cbn [emit_block eval].
  - apply emit_scope. exact Hk.
  - rewrite (emit_scope m e rho _ _ Hk). destruct (eval m (emit 0 e) rho [x]) as [j w|r y|n| |]; cbn [bind]; auto.
    rewrite (IH _ (j :: ins) 0 j eq_refl), (IH _ [j; x] 0 j eq_refl). reflexivity.
  - rewrite (emit_scope m e rho _ _ Hk). destruct (eval m (emit 0 e) rho [x]) as [j w|r y|n| |]; cbn [bind]; auto.
    rewrite (IH _ (j :: ins) 0 j eq_refl), (IH _ [j; x] 0 j eq_refl). reflexivity.
Qed.

(** A set of parsers closed under what the macro emits contains its blocks. *)
Section Closed.
  Context {I V E : Type} (m : @meaning I V E) (P : parser I V E -> Prop).
  Hypothesis Hext : forall p q : parser I V E, P p -> (forall i, p i = q i) -> P q.
  Hypothesis Hret : forall v, P (ret v).
  Hypothesis Herr : forall e, P (err e).
  Hypothesis Hmap : forall p (f : V -> V), P p -> P (fun i => map f (p i)).
  Hypothesis Hbind : forall p (f : V -> parser I V E), P p -> (forall v, P (f v)) -> P (fun i => bind (fun e => e) (p i) (fun i v => f v i)).
  Hypothesis Hor : forall p q, P p -> P q -> P (or_ p q).
  Hypothesis Hm : terms m P.

  Lemma closed_expr e : forall rho, P (fun i => eval m (emit 0 e) rho [i]).
  Proof.
    induction e as [a IHa b IHb|a IHa b IHb|a IHa b IHb|v|t u v|v|t u v|s v|f ps]; intros rho; cbn [emit eval].
    - apply Hext with (fun i => bind (fun e => e) (eval m (emit 0 a) rho [i]) (fun i v => eval m (emit 0 b) (bound BUnder v rho) [i])).
      + apply (@Hbind (fun i => eval m (emit 0 a) rho [i]) (fun v i => eval m (emit 0 b) (bound BUnder v rho) [i])); auto.
      + intros i. destruct (eval m (emit 0 a) rho [i]) as [j v|r y|n| |]; cbn [bind]; auto.
        rewrite (emit_scope m b (bound BUnder v rho) [j; i] 0 eq_refl). reflexivity.
    - apply Hext with (or_ (fun i => eval m (emit 0 a) rho [i]) (fun i => eval m (emit 0 b) rho [i])); auto.
      intros i. unfold with_input. cbn [nth_error]. unfold or_.
      rewrite (emit_scope m a rho [i; i] 0 eq_refl), (emit_scope m b rho [i; i] 0 eq_refl). reflexivity.
    - apply Hext with (fun i => bind (fun e => e) (eval m (emit 0 a) rho [i]) (fun i l => map (fun _ => l) (eval m (emit 0 b) rho [i]))).
      + apply (@Hbind (fun i => eval m (emit 0 a) rho [i]) (fun l i => map (fun _ => l) (eval m (emit 0 b) rho [i]))); auto.

      + intros i. destruct (eval m (emit 0 a) rho [i]) as [j v|r y|n| |]; cbn [bind]; auto.
        rewrite (emit_scope m b rho [j; i] 0 eq_refl). reflexivity.
    - exact (Hret _).
    - exact (Hret _).
    - exact (Herr _).
    - exact (Herr _).
    - exact (proj1 Hm rho s v).
    - exact (proj2 Hm rho f ps).
  Qed.
  Lemma closed_block b : forall rho, P (fun i => eval m (emit_block 0 b) rho [i]).
  Proof.
    induction b as [e|e b IH|x e b IH]; intros rho; cbn [emit_block eval].
    - apply closed_expr.
    - apply Hext with (fun i => bind (fun e => e) (eval m (emit 0 e) rho [i]) (fun i v => eval m (emit_block 0 b) (bound BUnder v rho) [i])).
      + apply (@Hbind (fun i => eval m (emit 0 e) rho [i]) (fun v i => eval m (emit_block 0 b) (bound BUnder v rho) [i])); auto using closed_expr.
      + intros i. destruct (eval m (emit 0 e) rho [i]) as [j v|r y|n| |]; cbn [bind]; auto.
        rewrite (emit_block_scope m b (bound BUnder v rho) [j; i] 0 eq_refl). reflexivity.
    - apply Hext with (fun i => bind (fun e => e) (eval m (emit 0 e) rho [i]) (fun i v => eval m (emit_block 0 b) (bound x v rho) [i])).
      + apply (@Hbind (fun i => eval m (emit 0 e) rho [i]) (fun v i => eval m (emit_block 0 b) (bound x v rho) [i])); auto using closed_expr.
      + intros i. destruct (eval m (emit 0 e) rho [i]) as [j v|r y|n| |]; cbn [bind]; auto.
        rewrite (emit_block_scope m b (bound x v rho) [j; i] 0 eq_refl). reflexivity.
  Qed.
  Lemma closed_parse rc ts c rho : lawful rc -> ts <> [] -> expand_parse rc (Some ts) = Some c -> P (fun i => eval m c rho [i]).
  Proof.
    intros Hrc Hne Hc. destruct (sound_block Hrc _ _ _ Hc) as [[E0 _]|[b [_ ->]]]; [congruence|]. apply closed_block.
  Qed.
End Closed.

(** Terms written with the library make blocks written with the library, *)
Theorem C55_built I V E (m : @meaning I V E) rc ts c rho (Hrc : lawful rc) (Hne : ts <> []) (Hc : expand_parse rc (Some ts) = Some c) :
  terms m built -> built (fun i => eval m c rho [i]).
Proof.
  intros Hm. eapply closed_parse; eauto; intros.
  - eapply b_ext; eauto.
  - apply b_ret.
  - apply b_err.
  - apply b_map. assumption.
  - apply b_bind with (f := fun i v => f v i); assumption.
  - apply b_or; assumption.
Qed.
Print Assumptions C55_built.

(** and stream-safe ones stream-safe blocks. *)
Theorem C55_safe I V E (m : @meaning I V E) rc ts c rho (Hrc : lawful rc) (Hne : ts <> []) (Hc : expand_parse rc (Some ts) = Some c) :
  terms m safe -> safe (fun i => eval m c rho [i]).
Proof.
  intros Hm. eapply closed_parse; eauto; intros.
  - eapply s_ext; eauto.
  - apply s_ret.
  - apply s_err.
  - apply s_map. assumption.
  - apply s_bind with (f := fun i v => f v i); assumption.
  - apply s_or; assumption.
Qed.
Print Assumptions C55_safe.

(** The user may write the terms by hand, without the library: what is claimed of them holds of the blocks. *)
Theorem C55_well_behaved I V E (m : @meaning I V E) rc ts c rho (Hrc : lawful rc) (Hne : ts <> []) (Hc : expand_parse rc (Some ts) = Some c) :
  terms m well_behaved -> well_behaved (fun i => eval m c rho [i]).
Proof.
  intros Hm. eapply closed_parse; eauto.
  - intros p q Hp Hq i. rewrite <- Hq. apply Hp.
  - intros v i. split; [reflexivity|]. apply suffix_refl.
  - intros e i. apply suffix_refl.
  - intros p f Hp i. specialize (Hp i). destruct (p i); exact Hp.
  - intros p f Hp Hf i. apply honest_bind; [apply Hp|]. intros j t. apply Hf.
  - intros p q Hp Hq i. specialize (Hp i). specialize (Hq i). unfold or_. destruct (p i); auto. destruct (last i); auto.
Qed.
Print Assumptions C55_well_behaved.

Theorem C55_stable I V E (m : @meaning I V E) rc ts c rho (Hrc : lawful rc) (Hne : ts <> []) (Hc : expand_parse rc (Some ts) = Some c) :
  terms m (fun p => stable p /\ well_behaved p) -> stable (fun i => eval m c rho [i]).
Proof.
  intros Hm. refine (proj1 (A := stable _) (B := well_behaved _) _).
  eapply (closed_parse (P := fun p => stable p /\ well_behaved p)); eauto.
  - intros p q [Hp Wp] Hq. split; [intros b l k; rewrite <- !Hq; apply Hp|]. intros i. rewrite <- Hq. apply Wp.
  - intros v. split; [intros b l k; reflexivity|]. intros i. split; [reflexivity|]. apply suffix_refl.
  - intros e. split; [intros b l k; reflexivity|]. intros i. apply suffix_refl.
  - intros p f [Hp Wp]. split; [|intros i; specialize (Wp i); destruct (p i); exact Wp].
    intros b l k. specialize (Hp b l k). destruct (p (mkInput false b)); cbn in *; auto; try (rewrite Hp; reflexivity).
    intros Hl Hn. destruct (Hp Hl Hn) as [n' ->]. exists n'. reflexivity.
  - intros p f [Hp Wp] Hf. split.
    + intros b l k. specialize (Hp b l k). specialize (Wp (mkInput false b)).
      destruct (p (mkInput false b)) as [j t|r e|n| |] eqn:Hpb; cbn [upholds bind] in *; auto; try (rewrite Hp; reflexivity).
      * rewrite Hp. cbn [bind]. rewrite !honest_map_err_id by exact j.
        destruct j as [lj bj]. destruct Wp as [Wl _]. cbn in Wl. subst lj. cbn [buf]. apply (proj1 (Hf t)).
      * intros Hl Hn. destruct (Hp Hl Hn) as [n' ->]. cbn. eauto.
    + intros i. apply honest_bind; [apply Wp|]. intros j t. apply (proj2 (Hf t)).
  - intros p q [Hp Wp] [Hq Wq]. split.
    + intros b l k. specialize (Hp b l k). specialize (Hq b l k). unfold or_.
      destruct (p (mkInput false b)) as [j t|r e|n| |] eqn:Hpb; cbn [upholds] in *; auto; try (rewrite Hp; try reflexivity; assumption).
      cbn. intros Hl Hn. destruct (Hp Hl Hn) as [n' ->]. subst. exists n'. reflexivity.
    + intros i. specialize (Wp i). specialize (Wq i). unfold or_. destruct (p i); auto. destruct (last i); auto.
Qed.
Print Assumptions C55_stable.

(** The macro adds no panic. *)
Theorem C55_no_panic I V E (m : @meaning I V E) rc ts c rho (Hrc : lawful rc) (Hne : ts <> []) (Hc : expand_parse rc (Some ts) = Some c) :
  terms m (fun p => forall i, p i <> Panic) -> forall i, eval m c rho [i] <> Panic.
Proof.
  intros Hm. eapply (closed_parse (P := fun p => forall i, p i <> Panic)); eauto.
  - intros p q Hp Hq i. rewrite <- Hq. apply Hp.
  - intros v i. discriminate.
  - intros e i. discriminate.
  - intros p f Hp i. specialize (Hp i). destruct (p i); cbn; congruence.
  - intros p f Hp Hf i. specialize (Hp i). destruct (p i) as [j v|r e|n| |]; cbn; try congruence.
    specialize (Hf v j). destruct (f v j); cbn; congruence.
  - intros p q Hp Hq i. specialize (Hp i). specialize (Hq i). unfold or_. destruct (p i); auto. destruct (last i); [exact Hq | discriminate].
Qed.
Print Assumptions C55_no_panic.

(** Nor does it run forever. *)
Theorem C55_ends I V E (m : @meaning I V E) rc ts c rho (Hrc : lawful rc) (Hne : ts <> []) (Hc : expand_parse rc (Some ts) = Some c) :
  terms m (fun p => forall i, p i <> NoFuel) -> forall i, eval m c rho [i] <> NoFuel.
Proof.
  intros Hm. eapply (closed_parse (P := fun p => forall i, p i <> NoFuel)); eauto.
  - intros p q Hp Hq i. rewrite <- Hq. apply Hp.
  - intros v i. discriminate.
  - intros e i. discriminate.
  - intros p f Hp i. specialize (Hp i). destruct (p i); cbn; congruence.
  - intros p f Hp Hf i. specialize (Hp i). destruct (p i) as [j v|r e|n| |]; cbn; try congruence.
    specialize (Hf v j). destruct (f v j); cbn; congruence.
  - intros p q Hp Hq i. specialize (Hp i). specialize (Hq i). unfold or_. destruct (p i); auto. destruct (last i); [exact Hq | discriminate].
Qed.
Print Assumptions C55_ends.

(** A program which parses blocks one after the other, choosing the next one by what it got, ends the same way over a source, in whatever
    pieces the data comes, as over the whole data at once. *)
Inductive block_script {I V E} (rc : rustc) : script I V E -> Prop :=
| block_stop : block_script rc Stop
| block_next : forall ts (m : @meaning I V E) c rho k, ts <> [] -> expand_parse rc (Some ts) = Some c ->
    terms m (fun p => stable p /\ well_behaved p /\ forall i, p i <> NoFuel) ->
    (exists n, eval m c rho [mkInput false []] = Incomplete n) ->
    (forall r, block_script rc (k r)) -> block_script rc (Next (fun i => eval m c rho [i]) k).
Theorem C55_stream St I V E (ds : data_source St I) R alloc s data e rc (p : script I V E) fuel
    (Hrc : lawful rc) (Ho : obeys ds) (Hd : delivers ds R) (Hs : R s data e) (Hp : block_script rc p) (Hf : 2 * length data + e + 2 <= fuel) :
  on_source ds (growing_ops I) fuel p (src_with_buffer s (growing_with_limit 0 alloc 0)) = on_slice p (slice_new data).
Proof.
  eapply C31_growing; eauto. generalize (slice_new data). clear Hs Hf.
  induction Hp as [|ts m c rho k Hne Hc Hm Hi Hk IH]; intros ss; [apply ss_stop|]. apply ss_next; [|intros; apply IH].
  destruct Hm as [Hm1 Hm2]. split; auto.
  - eapply C55_stable; eauto. split; intros; split; (apply Hm1 || apply Hm2).
  - eapply C55_well_behaved; eauto. split; intros; (apply Hm1 || apply Hm2).
  - eapply C55_ends; eauto. split; intros; (apply Hm1 || apply Hm2).
Qed.
Print Assumptions C55_stream.

(** On the slice, no call of the program asks for more than [fits] allows. *)
Inductive script_fits {I T E} (fits : nat -> Prop) : slice_stream I -> script I T E -> Prop :=
| sf_stop : forall s, script_fits fits s Stop
| sf_next : forall s p k, (let rest := skipn (ss_pos s) (ss_slice s) in
      forall b c n, rest = b ++ c -> p (mkInput false b) = Incomplete n -> fits (Nat.min (length b + n) (length rest))) ->
    (forall s' r, slice_parse p s = Done (s', r) -> script_fits fits s' (k (forget r))) -> script_fits fits s (Next p k).

(** The same over any other buffer (a FixedSizeBuffer among them, C63_fixed) as long as it can hold what the blocks ask for. *)
Theorem C55_any_buffer St I B V E (ds : data_source St I) (ops : buffer_ops I B) fits b0 R s data e rc (p : script I V E) fuel
    (Hrc : lawful rc) (Ho : obeys ds) (Hd : delivers ds R) (Hs : R s data e) (Hl : SpecAnyBuffer.lawful ops fits b0) (H1 : fits 1)
    (Hp : block_script rc p) (Hfit : script_fits fits (slice_new data) p) (Hf : 2 * length data + e + 2 <= fuel) :
  on_source ds ops fuel p (src_with_buffer s b0) = on_slice p (slice_new data) /\
  same_run (Forall2 shows_part_of) (on_source_full ds ops fuel p (src_with_buffer s b0)) (on_slice_full p (slice_new data)).
Proof.
  eapply C63_answers; eauto. revert Hfit. generalize (slice_new data). clear Hs Hf Hl H1.
  induction Hp as [|ts m c rho k Hne Hc Hm Hi Hk IH]; intros ss Hfit; [apply ss_stop|].
  inversion Hfit as [|? ? ? Hb Hn]; subst. apply ss_next; [|intros ? ? Hr; apply IH, (Hn _ _ Hr)].
  destruct Hm as [Hm1 Hm2]. split; auto.
  - eapply C55_stable; eauto. split; intros; split; (apply Hm1 || apply Hm2).
  - eapply C55_well_behaved; eauto. split; intros; (apply Hm1 || apply Hm2).
  - eapply C55_ends; eauto. split; intros; (apply Hm1 || apply Hm2).
Qed.
Print Assumptions C55_any_buffer.

(** The condition on the terms is needed: a call is a block. *)
Theorem C55_terms_needed I V E (m : @meaning I V E) rc f ps (Hrc : lawful rc) (Hr : f <> kw_ret) (He : f <> kw_err) (Ha : args rc ps <> None) :
  exists c l, expand_parse rc (Some [Ident f; Group ps]) = Some c /\ args rc ps = Some l /\ forall rho i, eval m c rho [i] = m_call m rho f l i.
Proof.
  destruct (args rc ps) as [l|] eqn:El; [|congruence].
  assert (Hg : g_block rc plain True [Ident f; Group ps] (BLast (ENamed f l))).
  { apply g_last, g_expr_alt, g_alt_skip, g_skip_term, g_named; assumption. }
  exists (emit_block 0 (BLast (ENamed f l))), l. split; [apply (complete_block Hrc Hg); lia|]. split; [reflexivity|]. reflexivity.
Qed.
Print Assumptions C55_terms_needed.

(** The program of [PropsMacro]: [let x = f(); let y: T = g(x) <* h() <|> (p() >> q()); k(); ret y >> ret x] with [f], [k] single items, [g(x)]
    an item other than [x], [h] a zero, [p] two items, [q] the number of items up to a zero. *)
Fixpoint lookup (x : nat) (rho : list (binder * nat)) : nat :=
  match rho with
  | [] => 0
  | (BPat [Ident y], v) :: rho => if y =? x then v else lookup x rho
  | (BTyped y _, v) :: rho => if y =? x then v else lookup x rho
  | _ :: rho => lookup x rho
  end.
Definition demo_meaning : @meaning nat nat (error nat) := {|
  m_value := fun rho e => match e with [Ident x] => lookup x rho | _ => 0 end;
  m_error := fun _ _ => Unexpected;
  m_inline := fun _ _ _ => any;
  m_call := fun rho f ps =>
    if f =? 21 then match ps with [[Ident x]] => not_token true Nat.eqb (lookup x rho) | _ => any end
    else if f =? 22 then token true Nat.eqb 0
    else if f =? 23 then (fun i => map (fun l => length l) (take 2 i))
    else if f =? 24 then (fun i => map (fun l => length l) (take_till (Nat.eqb 0) i))
    else any |}.
Lemma demo_terms : terms demo_meaning (fun p => stable p /\ well_behaved p /\ forall i, p i <> NoFuel).
Proof.
  assert (A : forall p : parser nat nat (error nat), safe p -> (forall i, p i <> NoFuel) -> stable p /\ well_behaved p /\ forall i, p i <> NoFuel).
  { intros p Hp Hn. split; [apply safe_stable, Hp|]. split; [apply built_well_behaved, safe_built, Hp|exact Hn]. }
  assert (Any : forall i : input nat, any i <> NoFuel) by (intros [l [|x b]]; discriminate).
  split; intros rho f ps; cbn.
  - apply A; [apply s_any|exact Any].
  - destruct (f =? 21).
    { assert (H : forall x, stable (not_token true Nat.eqb x) /\ well_behaved (not_token true Nat.eqb x) /\ forall i, not_token true Nat.eqb x i <> NoFuel).
      { intros x. apply A; [apply s_not_token|]. intros [l [|y b]]; unfold not_token; cbn; [discriminate|]. destruct (x =? y); discriminate. }
      assert (G : stable (@any nat) /\ well_behaved (@any nat) /\ forall i, @any nat i <> NoFuel) by (apply A; [apply s_any|exact Any]).
      destruct ps as [|[|[] [|]] [|]]; auto. }
    destruct (f =? 22). { apply A; [apply s_token|]. intros [l [|y b]]; unfold token; cbn; [discriminate|]. destruct y; discriminate. }
    destruct (f =? 23). { apply A; [apply s_map, s_take|]. intros i. unfold take. destruct (2 <=? length (buf i)); discriminate. }
    destruct (f =? 24). { apply A; [apply s_map, s_take_till|]. intros i. unfold take_till. destruct (position _ _); [discriminate|]. destruct (last i); discriminate. }
    apply A; [apply s_any|exact Any].
Qed.
Example C55_case : exists c, expand_parse toy (Some program) = Some c /\
  let cs := [Some [7; 8]; None; Some [0]; Some [5; 7]; Some [7; 9; 3]; None; Some [0; 6]; Some [1]] in
  let run := fun i => eval demo_meaning c [] [i] in
  let prog := Next run (fun _ => Next run (fun _ => Next run (fun _ => Stop))) in
  lawful toy /\ block_script toy prog /\ schedule cs [7; 8; 0; 5; 7; 7; 9; 3; 0; 6; 1] 2 /\
  on_source demo_source (growing_ops nat) 26 prog (src_with_buffer cs (growing_with_limit 0 (fun _ => 0) 0)) =
    Done [inl 7; inl 7; inr (SIncomplete 3)] /\
  on_slice prog (slice_new [7; 8; 0; 5; 7; 7; 9; 3; 0; 6; 1]) = Done [inl 7; inl 7; inr (SIncomplete 3)].
Proof.
  eexists. split; [vm_compute; reflexivity|]. cbv zeta. split; [exact toy_lawful|]. split; [|split; [|split; vm_compute; reflexivity]].
  - apply block_next with (ts := program); try apply demo_terms; try (exists 1; reflexivity); [discriminate|vm_compute; reflexivity|]. intros _.
    apply block_next with (ts := program); try apply demo_terms; try (exists 1; reflexivity); [discriminate|vm_compute; reflexivity|]. intros _.
    apply block_next with (ts := program); try apply demo_terms; try (exists 1; reflexivity); [discriminate|vm_compute; reflexivity|]. intros _.
    apply block_stop.
  - split; [|split; reflexivity]. cbn. intros H. repeat (destruct H as [H|H]; [discriminate|]). exact H.
Qed.
(** The same with a FixedSizeBuffer of six items, which is as many as the blocks need at a time. *)
Example C55_fixed_case : exists c b0, expand_parse toy (Some program) = Some c /\ fixed_with_size 6 = Done b0 /\
  let cs := [Some [7; 8]; None; Some [0]; Some [5; 7]; Some [7; 9; 3]; None; Some [0; 6]; Some [1]] in
  let run := fun i => eval demo_meaning c [] [i] in
  let prog := Next run (fun _ => Next run (fun _ => Next run (fun _ => Stop))) in
  block_script toy prog /\ script_fits (fun m => m <= 6) (slice_new (chunks_data cs)) prog /\
  on_source demo_source (fixed_ops nat) 26 prog (src_with_buffer cs b0) = Done [inl 7; inl 7; inr (SIncomplete 3)].
Proof.
  eexists. eexists. split; [vm_compute; reflexivity|]. split; [reflexivity|]. cbv zeta. split; [|split; [|vm_compute; reflexivity]].
  - apply block_next with (ts := program); try apply demo_terms; try (exists 1; reflexivity); [discriminate|vm_compute; reflexivity|]. intros _.
    apply block_next with (ts := program); try apply demo_terms; try (exists 1; reflexivity); [discriminate|vm_compute; reflexivity|]. intros _.
    apply block_next with (ts := program); try apply demo_terms; try (exists 1; reflexivity); [discriminate|vm_compute; reflexivity|]. intros _.
    apply block_stop.
  - assert (Go : forall (rest : list nat) size (p : parser nat nat (error nat)),
      forallb (fun k => match p (mkInput false (firstn k rest)) with Incomplete n => Nat.min (k + n) (length rest) <=? size | _ => true end)
        (seq 0 (S (length rest))) = true ->
      forall b c n, rest = b ++ c -> p (mkInput false b) = Incomplete n -> Nat.min (length b + n) (length rest) <= size).
    { intros rest size p Hall b c n Hb Hn. rewrite forallb_forall in Hall. specialize (Hall (length b)).
      rewrite in_seq in Hall. replace (firstn (length b) rest) with b in Hall by (rewrite Hb, firstn_app, firstn_all, Nat.sub_diag, app_nil_r; reflexivity). rewrite Hn in Hall.
      apply Nat.leb_le, Hall. rewrite Hb, app_length. lia. }
    Local Ltac fit Go := match goal with |- context [eval ?m ?c ?rho _] => refine (Go _ _ (fun i => eval m c rho [i]) _); vm_compute; reflexivity end.
    apply sf_next; [fit Go|]. intros s1 r1 H1. vm_compute in H1. injection H1 as <- <-.
    apply sf_next; [fit Go|]. intros s2 r2 H2. vm_compute in H2. injection H2 as <- <-.
    apply sf_next; [fit Go|]. intros s3 r3 H3. vm_compute in H3. injection H3 as <- <-.
    apply sf_stop.
Qed.
