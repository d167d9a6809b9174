(** Proofs: state which closures keep (C79). *)
From Coq Require Import List Bool Arith Lia.
From Verif Require Import Base Parsers Combinators Buffer Stream SpecBase SpecBuffer SpecSafe SpecStream Effects SpecEffects SpecKeep
  EffectsExprProofs IterProofs SafeProofs StableProofs BufferProofs StreamProofs SimProofs EffectsProofs EffectsStreamProofs.
Import ListNotations.

Set Implicit Arguments.

(** * Firm parsers *)

Lemma step_firm : forall W I T E (p : sparser W I T E), firm p -> (forall w i, honest i (fst (p w i))) -> forall l c w j1 j2, ext l c j1 j2 ->
  match p w j1 with
  | (Data k v, w') => p w j2 = (Data (mkInput l (buf k ++ c)) v, w') /\ last k = false
  | (Error b e, w') => p w j2 = (Error (b ++ c) e, w')
  | (Incomplete n, _) => 1 <= n /\ ((l = false -> length c < n -> exists m w'', p w j2 = (Incomplete m, w'')))
  | (Panic, w') => p w j2 = (Panic, w')
  | (NoFuel, _) => True
  end.
Proof.
  intros W I T E p Hf Hw l c w [l1 b1] j2 [Hl ->]. cbn [last] in Hl. subst l1. cbn [buf]. specialize (Hf w b1 l c). specialize (Hw w (mkInput false b1)).
  destruct (p w (mkInput false b1)) as [[k v|b e|n| |] w1]; cbn [upholds_w fst honest] in *; auto.
  - destruct Hw. auto.
  - split; [assumption|]. intros Hl Hn. destruct (Hf Hl Hn) as [m Hm]. destruct (p w (mkInput l (b1 ++ c))) as [r2 w2]. cbn [fst] in Hm. subst r2. eauto.
Qed.

(** * Loops *)

Definition paired {W It U} (next : It -> W -> step It U * W) (x : It * W) : step (It * W) U :=
  match next (fst x) (snd x) with
  | (Yield u it, w) => Yield u (it, w)
  | (Combinators.Stop it, w) => Combinators.Stop (it, w)
  | (StepPanic, _) => StepPanic
  | (StepNoFuel, _) => StepNoFuel
  end.

Lemma from_iter_paired : forall W It U T C (next : It -> W -> step It U * W) hint (act : C -> caction U T C) fuel c it w,
  from_iter fuel (paired next) (fun x => hint (fst x)) act c (it, w) =
    match from_iter_w fuel next hint act c it w with
    | (FDone t it', w') => FDone t (it', w')
    | (FPanic, _) => FPanic
    | (FNoFuel, _) => FNoFuel
    end.
Proof.
  intros W It U T C next hint act. induction fuel as [|fuel IH]; intros c it w; [reflexivity|]. cbn [from_iter from_iter_w].
  destruct (act c) as [t|k|k|]; auto. unfold paired at 1. cbn [fst snd].
  destruct (next it w) as [[u it'|it'| |] w1]; auto.
Qed.

(** As [from_iter_sim] of StableProofs.v; a panic leaves the same world. *)
Lemma from_iter_w_sim : forall W It U T C (next : It -> W -> step It U * W) hint (col : collector U T C) (R Q : It * W -> It * W -> Prop) (WW : It * W -> Prop),
  (forall a b, R a b -> hint (fst a) = hint (fst b)) -> (forall a b, Q a b -> hint (fst a) = hint (fst b)) ->
  (forall a b, R a b ->
    match next (fst a) (snd a) with
    | (Yield u a', w) => exists b' w2, next (fst b) (snd b) = (Yield u b', w2) /\ R (a', w) (b', w2)
    | (Combinators.Stop a', w) => (exists b' w2, next (fst b) (snd b) = (Combinators.Stop b', w2) /\ Q (a', w) (b', w2)) \/ WW (a', w)
    | (StepPanic, w) => next (fst b) (snd b) = (StepPanic, w)
    | (StepNoFuel, _) => True
    end) ->
  (forall a b, R a b -> snd a = snd b) ->
  exhausts col -> forall fuel a b, R a b ->
    match from_iter_w fuel next hint (cact col) (cinit col) (fst a) (snd a) with
    | (FDone t a', w) => (exists b' w2, from_iter_w fuel next hint (cact col) (cinit col) (fst b) (snd b) = (FDone t b', w2) /\ Q (a', w) (b', w2)) \/ WW (a', w)
    | (FPanic, w) => from_iter_w fuel next hint (cact col) (cinit col) (fst b) (snd b) = (FPanic, w)
    | (FNoFuel, _) => True
    end.
Proof.
  intros W It U T C next hint col R Q WW R_hint Q_hint R_next R_same (P & HP & Hst). generalize (cinit col) HP. intros c Hc fuel. revert c Hc.
  induction fuel as [|fuel IH]; intros c Hc a b HR; [exact Logic.I|]. cbn [from_iter_w]. specialize (Hst c Hc).
  destruct (cact col c) as [t|k|k|].
  - contradiction.
  - destruct Hst as [Hsome Hnone]. pose proof (R_next _ _ HR) as Hn. destruct (next (fst a) (snd a)) as [[u a'|a'| |] w1].
    + destruct Hn as (b' & w2 & -> & HR'). exact (IH _ (Hsome u) _ _ HR').
    + pose proof (quiet_done (paired next) (fun x => hint (fst x)) Hnone fuel (a', w1)) as Hd.
      destruct (from_iter fuel (paired next) (fun x => hint (fst x)) (cact col) (k None) (a', w1)) as [t a''| |] eqn:Hf.
      * subst a''. rewrite from_iter_paired in Hf. destruct (from_iter_w fuel next hint (cact col) (k None) a' w1) as [[t1 a1| |] w3] eqn:Hf1; try discriminate. injection Hf as -> -> ->.
        destruct Hn as [(b' & w2 & -> & HQ)|HW]; [|right; exact HW]. left. exists b', w2. split; [|exact HQ].
        assert (Hf : from_iter fuel (paired next) (fun x => hint (fst x)) (cact col) (k None) (a', w1) = FDone t (a', w1)) by (rewrite from_iter_paired, Hf1; reflexivity).
        pose proof (@quiet_same _ _ _ _ _ (paired next) (paired next) (fun x => hint (fst x)) (fun x => hint (fst x)) _ _ Hnone fuel (a', w1) (b', w2) t (Q_hint _ _ HQ) Hf) as H2.
        rewrite from_iter_paired in H2. destruct (from_iter_w fuel next hint (cact col) (k None) b' w2) as [[t2 b2| |] w4]; try discriminate. injection H2 as -> -> ->. reflexivity.
      * contradiction.
      * rewrite from_iter_paired in Hf. destruct (from_iter_w fuel next hint (cact col) (k None) a' w1) as [[t1 a1| |] w3]; try discriminate. exact Logic.I.
    + rewrite Hn. reflexivity.
    + exact Logic.I.
  - rewrite <- (R_hint _ _ HR). exact (IH _ (Hst _) _ _ HR).
  - rewrite (R_same _ _ HR). reflexivity.
Qed.

Section Loops.
  Context {W I U E : Type}.
  Variable p : sparser W I U E.
  Hypothesis Hf : firm p.
  Hypothesis Hw : forall w i, honest i (fst (p w i)).
  Variable l : bool.
  Variable c : list I.

  Lemma run_iter_firm : forall T D C fuel (col : collector U T C) (data : D) hint pre on fin b w0,
    exhausts col ->
    (forall t j1 j2 d st1 st2 w1 w2, ext l c j1 j2 -> st_rel l c (pre d) st1 st2 ->
       (pre d = true \/ (exists r e, st1 = ESError r e) -> w1 = w2) -> upholds_w l c (fin t j1 d st1, w1) (fin t j2 d st2, w2 : W)) ->
    (forall t j1 d n x (w1 : W), last j1 = false -> pre d = false -> 1 <= n -> (l = false -> length c < n -> False) ->
        upholds_w l c (fin t j1 d (ESIncomplete n), w1) x) ->
    upholds_w l c (run_iter_w fuel col (mkInput false b) p data hint pre on fin w0)
                  (run_iter_w fuel col (mkInput l (b ++ c)) p data hint pre on fin w0).
  Proof.
    intros T D C fuel col data hint pre on fin b w0 Hcol HQ HW. unfold run_iter_w.
    pose (R := fun a b : iter unit I E D * W => it_state (fst a) = ESIncomplete 1 /\ it_state (fst b) = ESIncomplete 1 /\ snd a = snd b /\ it_data (fst a) = it_data (fst b) /\ ext l c (it_buf (fst a)) (it_buf (fst b))).
    pose (Q := fun a b : iter unit I E D * W => it_data (fst a) = it_data (fst b) /\ ext l c (it_buf (fst a)) (it_buf (fst b)) /\ st_rel l c (pre (it_data (fst a))) (it_state (fst a)) (it_state (fst b)) /\
      (pre (it_data (fst a)) = true \/ (exists r e, it_state (fst a) = ESError r e) -> snd a = snd b)).
    pose (WW := fun a : iter unit I E D * W => exists n, it_state (fst a) = ESIncomplete n /\ last (it_buf (fst a)) = false /\ pre (it_data (fst a)) = false /\ 1 <= n /\ (l = false -> length c < n -> False)).
    pose proof (@from_iter_w_sim W _ U T C (iter_next_w p pre on) (fun x => hint (it_data x)) col R Q WW) as Hsim.
    assert (Hfi := Hsim ltac:(intros x y (_ & _ & _ & H & _); rewrite H; reflexivity) ltac:(intros x y (H & _); rewrite H; reflexivity)).
    clear Hsim.
    match type of Hfi with ?A -> _ => assert (Hn : A) end.
    { intros [x wx] [y wy] (Hx1 & Hx2 & Hps & Hd & He). unfold iter_next_w. cbn [fst snd] in *. subst wy. rewrite <- Hd. destruct (pre (it_data x)) eqn:Hpre.
      - left. do 2 eexists. split; [reflexivity|]. unfold Q. cbn [fst snd]. rewrite Hpre. rewrite Hx1, Hx2. simpl. auto 10.
      - pose proof (step_firm Hf Hw wx He) as Hst. destruct (p wx (it_buf x)) as [[k v|r e|n| |] s'].
        + destruct Hst as [-> Hk]. do 2 eexists. split; [reflexivity|]. unfold R, ext. simpl. rewrite Hd. auto 10.
        + rewrite Hst. left. do 2 eexists. split; [reflexivity|]. unfold Q. simpl. auto.
        + destruct Hst as [Hn1 Hst]. destruct (bool_dec l false) as [Hl|Hl]; [destruct (lt_dec (length c) n) as [Hlt|Hlt]|].
          * destruct (Hst Hl Hlt) as (m & s'' & ->). left. do 2 eexists. split; [reflexivity|]. unfold Q. simpl. rewrite Hpre. split; [auto|]. split; [auto|]. split; [auto|].
            intros [|(? & ? & ?)]; discriminate.
          * right. exists n. simpl. destruct He. auto 10.
          * right. exists n. simpl. destruct He. repeat split; auto; intros; congruence.
        + rewrite Hst. reflexivity.
        + exact Logic.I. }
    specialize (Hfi Hn ltac:(intros x y (_ & _ & H & _); exact H) Hcol fuel (mkIter (ESIncomplete 1) tt (mkInput false b) data, w0) (mkIter (ESIncomplete 1) tt (mkInput l (b ++ c)) data, w0)).
    match type of Hfi with ?A -> _ => assert (HR : A) by (unfold R, ext; simpl; auto 10) end. specialize (Hfi HR). clear HR Hn.
    cbn [fst snd] in Hfi.
    destruct (from_iter_w _ _ _ _ _ (mkIter (ESIncomplete 1) tt (mkInput false b) data) w0) as [[t x| |] w1];
      destruct (from_iter_w _ _ _ _ _ (mkIter (ESIncomplete 1) tt (mkInput l (b ++ c)) data) w0) as [[t' y'| |] w2];
      try discriminate; try exact Logic.I; try (injection Hfi as ->; reflexivity).
    - destruct Hfi as [(y & wy & Heq & Hd & He & Hst & Hwo)|(n & Hx & Hlast & Hpre & Hn & Hlc)]; cbn [fst snd] in *.
      + injection Heq as -> -> ->. rewrite <- Hd. apply HQ; auto.
      + rewrite Hx. apply HW; auto.
    - destruct Hfi as [(y & wy & Heq & _)|(n & Hx & Hlast & Hpre & Hn & Hlc)]; [discriminate|]. cbn [fst] in *. rewrite Hx. apply HW; auto.
    - destruct Hfi as [(y & wy & Heq & _)|(n & Hx & Hlast & Hpre & Hn & Hlc)]; [discriminate|]. cbn [fst] in *. rewrite Hx. apply HW; auto.
  Qed.
End Loops.

Ltac kfin_q := intros t [l1 b1] j2 d st1 st2 w1 w2 [Hl1 ->] Hst Hwo; cbn [last buf] in *; subst;
  match type of d with (_ * _)%type => destruct d as [d1 d2] | _ => idtac end;
  destruct st1 as [r1 e1|n1], st2 as [r2 e2|n2]; cbn [st_rel] in Hst; try contradiction;
  [destruct Hst; subst; pose proof (Hwo (or_intror (ex_intro _ _ (ex_intro _ _ eq_refl)))); subst
  |destruct Hst as [(Hpre & -> & ->)|(-> & Hpre)]; [pose proof (Hwo (or_introl Hpre)); subst|]];
  cbn [fst snd] in *; unfold ret, err, incomplete, replace; cbn [last buf];
  repeat match goal with |- context [match ?x with O => _ | S _ => _ end] => is_var x; destruct x; cbn [Nat.eqb] in * end;
  try discriminate; cbn [upholds_w fst]; eauto.
Ltac kfin_w := intros t [l1 b1] d k0 x0 w1 Hl1 Hpre Hn Hlc; cbn [last buf] in *; subst;
  match type of d with (_ * _)%type => destruct d as [d1 d2] | _ => idtac end;
  cbn [fst snd] in *; unfold ret, err, incomplete, replace; cbn [last buf];
  repeat match goal with |- context [match ?x with O => _ | S _ => _ end] => is_var x; destruct x; cbn [Nat.eqb] in * end;
  try discriminate; cbn [upholds_w]; intros; exfalso; auto.

Lemma bmany_firm : forall W I U T E C fuel (col : collector U T C) r (p : sparser W I U E),
  exhausts col -> firm p -> (forall w i, honest i (fst (p w i))) -> firm (bmany_w fuel col p r).
Proof.
  intros W I U T E C fuel col r p Hcol Hf Hw w b l c.
  destruct r as [x y|x| |y|n]; cbn [bmany_w].
  - destruct (negb (x <=? y)); [reflexivity|]. apply run_iter_firm; auto; [kfin_q|kfin_w].
  - apply run_iter_firm; auto; [kfin_q|kfin_w].
  - apply run_iter_firm; auto; [kfin_q|kfin_w].
  - apply run_iter_firm; auto; [kfin_q|kfin_w].
  - apply run_iter_firm; auto; [kfin_q|kfin_w].
Qed.

(** * skip_many *)
Section Skips.
  Context {W I U E : Type}.
  Variable p : sparser W I U E.
  Hypothesis Hf : firm p.
  Hypothesis Hw : forall w i, honest i (fst (p w i)).
  Variable l : bool.
  Variable c : list I.

  Ltac kskip IH :=
    match goal with |- context [p ?s (mkInput false ?b)] =>
      let H := fresh "Hst" in
      assert (H := step_firm Hf Hw s (conj (eq_refl : last (mkInput false b) = false) (eq_refl : mkInput l (b ++ c) = mkInput l (buf (mkInput false b) ++ c))));
      destruct (p s (mkInput false b)) as [[[?kl ?kb] ?v|?r ?e|?m| |] ?s'];
      [destruct H as [-> ?Hk]; cbn [last buf] in *; subst; apply IH
      |rewrite H; unfold ret, err, incomplete, replace; cbn [last buf]; repeat dif; cbn [upholds_w]; auto
      |destruct H as [?Hm H]; unfold incomplete; cbn [last]; rewrite ?andb_false_r;
       try (match goal with |- context [?x =? 0] => destruct (Nat.eqb_spec x 0); [lia|] end);
       cbn [upholds_w]; intros -> ?Hl; destruct (H eq_refl Hl) as (?m2 & ?s2 & ?Heq); rewrite Heq; cbn [last fst]; rewrite ?andb_false_r
      |rewrite H; reflexivity
      |exact Logic.I]
    end.

  Lemma skip_full_firm : forall fuel w b, upholds_w l c (skip_many_full_w p fuel w (mkInput false b)) (skip_many_full_w p fuel w (mkInput l (b ++ c))).
  Proof. induction fuel as [|fuel IH]; intros w b; [exact Logic.I|]. cbn [skip_many_full_w]. kskip IH. eauto. Qed.
  Lemma skip_from_firm : forall fuel a w b, upholds_w l c (skip_many_from_w p fuel a w (mkInput false b)) (skip_many_from_w p fuel a w (mkInput l (b ++ c))).
  Proof. induction fuel as [|fuel IH]; intros a w b; [exact Logic.I|]. cbn [skip_many_from_w]. kskip IH. eauto. Qed.
  Lemma skip_to_firm : forall fuel a w b, upholds_w l c (skip_loop_to_w p fuel a w (mkInput false b)) (skip_loop_to_w p fuel a w (mkInput l (b ++ c))).
  Proof. induction fuel as [|fuel IH]; intros a w b; [exact Logic.I|]. cbn [skip_loop_to_w]. destruct (a =? 0); [reflexivity|]. kskip IH. eauto. Qed.
  Lemma skip_range_firm : forall fuel a a' w b, upholds_w l c (skip_loop_range_w p fuel a a' w (mkInput false b)) (skip_loop_range_w p fuel a a' w (mkInput l (b ++ c))).
  Proof. induction fuel as [|fuel IH]; intros a a' w b; [exact Logic.I|]. cbn [skip_loop_range_w]. destruct (a' =? 0); [reflexivity|]. kskip IH. eauto. Qed.
  Lemma skip_exact_firm : forall fuel a w b, upholds_w l c (skip_many_exact_w p fuel a w (mkInput false b)) (skip_many_exact_w p fuel a w (mkInput l (b ++ c))).
  Proof.
    induction fuel as [|fuel IH]; intros a w b; [exact Logic.I|]. cbn [skip_many_exact_w]. destruct (Nat.eqb_spec a 0); [reflexivity|].
    pose proof (Hw w (mkInput l (b ++ c))) as Hh. kskip IH.
    rewrite Heq in Hh. cbn [fst honest] in Hh. destruct (Nat.eqb_spec m2 0); [lia|]. eauto.
  Qed.

  Lemma bskip_firm : forall fuel r w b, upholds_w l c (bskip_many_w p fuel r w (mkInput false b)) (bskip_many_w p fuel r w (mkInput l (b ++ c))).
  Proof.
    intros fuel r w b. destruct r as [x y|x| |y|n]; cbn [bskip_many_w].
    - destruct (negb _); [reflexivity|]. apply skip_range_firm.
    - apply skip_from_firm.
    - apply skip_full_firm.
    - apply skip_to_firm.
    - apply skip_exact_firm.
  Qed.
End Skips.

(** * many_till *)
Section Tills.
  Context {W I U V E N : Type}.
  Variable p : sparser W I U E.
  Variable l : bool.
  Variable c : list I.

  Lemma run_iter_till_firm : forall T D C fuel (col : collector U T C) (data : D) hint
      (pre : iter_till unit unit I E D -> W -> pre_res (iter_till unit unit I E D) * W) on fin b w0,
    exhausts col ->
    (forall x y w, tt_state x = TIncomplete 1 -> tt_state y = TIncomplete 1 -> tt_data x = tt_data y -> ext l c (tt_buf x) (tt_buf y) ->
       match iter_till_next_w p pre on x w with
       | (Yield u x', w') => exists y', iter_till_next_w p pre on y w = (Yield u y', w') /\
           tt_state x' = TIncomplete 1 /\ tt_state y' = TIncomplete 1 /\ tt_data x' = tt_data y' /\ ext l c (tt_buf x') (tt_buf y')
       | (Combinators.Stop x', w') =>
           (exists y' w2, iter_till_next_w p pre on y w = (Combinators.Stop y', w2) /\ tt_data x' = tt_data y' /\ ext l c (tt_buf x') (tt_buf y') /\
              tst_rel c (tt_state x') (tt_state y') /\ ((forall n, tt_state x' <> TIncomplete n) -> w' = w2)) \/
           (exists n, tt_state x' = TIncomplete n /\ (l = false -> length c < n -> False))
       | (StepPanic, w') => iter_till_next_w p pre on y w = (StepPanic, w')
       | (StepNoFuel, _) => True
       end) ->
    (forall t j1 j2 d st1 st2, ext l c j1 j2 -> tst_rel c st1 st2 -> upholds l c (fin t j1 d st1) (fin t j2 d st2)) ->
    (forall t j1 d n, fin t j1 d (TIncomplete n) = Incomplete n) ->
    upholds_w l c (run_iter_till_w fuel col (mkInput false b) p data hint pre on fin w0)
                  (run_iter_till_w fuel col (mkInput l (b ++ c)) p data hint pre on fin w0).
  Proof.
    intros T D C fuel col data hint pre on fin b w0 Hcol Hn HQ HW. unfold run_iter_till_w.
    pose (R := fun x y : iter_till unit unit I E D * W => tt_state (fst x) = TIncomplete 1 /\ tt_state (fst y) = TIncomplete 1 /\ snd x = snd y /\ tt_data (fst x) = tt_data (fst y) /\ ext l c (tt_buf (fst x)) (tt_buf (fst y))).
    pose (Q := fun x y : iter_till unit unit I E D * W => tt_data (fst x) = tt_data (fst y) /\ ext l c (tt_buf (fst x)) (tt_buf (fst y)) /\ tst_rel c (tt_state (fst x)) (tt_state (fst y)) /\
      ((forall n, tt_state (fst x) <> TIncomplete n) -> snd x = snd y)).
    pose (WW := fun x : iter_till unit unit I E D * W => exists n, tt_state (fst x) = TIncomplete n /\ (l = false -> length c < n -> False)).
    pose proof (@from_iter_w_sim W _ U T C (iter_till_next_w p pre on) (fun x => hint (tt_data x)) col R Q WW) as Hsim.
    assert (Hfi := Hsim ltac:(intros x y (_ & _ & _ & H & _); rewrite H; reflexivity) ltac:(intros x y (H & _); rewrite H; reflexivity)).
    clear Hsim.
    match type of Hfi with ?A -> _ => assert (Hx : A) end.
    { intros [x wx] [y wy] (H1 & H2 & H3 & H4 & H5). cbn [fst snd] in *. subst wy. specialize (Hn x y wx H1 H2 H4 H5). cbn [fst snd].
      destruct (iter_till_next_w p pre on x wx) as [[u x'|x'| |] w'].
      - destruct Hn as (y' & -> & G1 & G2 & G3 & G4). do 2 eexists. split; [reflexivity|]. unfold R. cbn [fst snd]. auto.
      - destruct Hn as [(y' & w2 & -> & G1 & G2 & G3 & G4)|G]; [|right; exact G]. left. do 2 eexists. split; [reflexivity|]. unfold Q. cbn [fst snd]. auto.
      - exact Hn.
      - exact Logic.I. }
    specialize (Hfi Hx ltac:(intros x y (_ & _ & H & _); exact H) Hcol fuel (mkIterTill (TIncomplete 1) tt tt (mkInput false b) data, w0) (mkIterTill (TIncomplete 1) tt tt (mkInput l (b ++ c)) data, w0)).
    match type of Hfi with ?A -> _ => assert (HR : A) by (unfold R, ext; simpl; auto 10) end. specialize (Hfi HR). clear HR Hn Hx.
    cbn [fst snd] in Hfi.
    destruct (from_iter_w _ _ _ _ _ (mkIterTill (TIncomplete 1) tt tt (mkInput false b) data) w0) as [[t x| |] w1].
    - destruct Hfi as [(y & wy & Heq & Hda & He & Hst & Hwo)|(n & Hx & Hlc)]; cbn [fst snd] in *.
      + destruct (from_iter_w _ _ _ _ _ (mkIterTill (TIncomplete 1) tt tt (mkInput l (b ++ c)) data) w0) as [[t' y'| |] w2]; try discriminate.
        injection Heq as -> -> ->. rewrite <- Hda. specialize (HQ t _ _ (tt_data x) _ _ He Hst).
        destruct (tt_state x) as [r e|n|] eqn:Hx; [|rewrite HW in *; cbn [upholds_w upholds fst] in *; exact HQ|];
          (rewrite <- Hwo by (intros n; discriminate); destruct (fin t (tt_buf x) (tt_data x) _); cbn [upholds_w upholds fst] in *; rewrite ?HQ; auto).
      + rewrite Hx, HW. cbn [upholds_w]. intros; exfalso; auto.
    - destruct (from_iter_w _ _ _ _ _ (mkIterTill (TIncomplete 1) tt tt (mkInput l (b ++ c)) data) w0) as [[t' y'| |] w2]; try discriminate. injection Hfi as ->. reflexivity.
    - exact Logic.I.
  Qed.
End Tills.

Section TillSteps.
  Context {W I U V E N D : Type}.
  Variable p : sparser W I U E.
  Variable end_ : sparser W I V N.
  Hypothesis Hp : firm p.
  Hypothesis Hw : forall w i, honest i (fst (p w i)).
  Hypothesis He : firm end_.
  Hypothesis Ew : forall w i, honest i (fst (end_ w i)).
  Hypothesis Hd : decisive_w p end_.
  Variable l : bool.
  Variable c : list I.
  Hypothesis Hlc : l = false -> 1 <= length c.
  Variable on : D -> D.

  Let it := iter_till unit unit I E D.
  Definition after_pre (x : pre_res it * W) : step it U * W :=
    match x with
    | (PrePanic, w) => (StepPanic, w)
    | (PreNoFuel, w) => (StepNoFuel, w)
    | (PreNone it, w) => (Combinators.Stop it, w)
    | (PreGo it, w) =>
        match p w (tt_buf it) with
        | (Data b v, w) => (Yield v (mkIterTill (tt_state it) tt tt b (on (tt_data it))), w)
        | (Error b e, w) => (Combinators.Stop (mkIterTill (TError b e) tt tt (tt_buf it) (tt_data it)), w)
        | (Incomplete n, w) => (Combinators.Stop (mkIterTill (TIncomplete n) tt tt (tt_buf it) (tt_data it)), w)
        | (Panic, w) => (StepPanic, w)
        | (NoFuel, w) => (StepNoFuel, w)
        end
    end.
  Definition steps_alike (x y : step it U * W) : Prop :=
    match x with
    | (Yield u x', w') => exists y', y = (Yield u y', w') /\
        tt_state x' = TIncomplete 1 /\ tt_state y' = TIncomplete 1 /\ tt_data x' = tt_data y' /\ ext l c (tt_buf x') (tt_buf y')
    | (Combinators.Stop x', w') =>
        (exists y' w2, y = (Combinators.Stop y', w2) /\ tt_data x' = tt_data y' /\ ext l c (tt_buf x') (tt_buf y') /\
           tst_rel c (tt_state x') (tt_state y') /\ ((forall n, tt_state x' <> TIncomplete n) -> w' = w2)) \/
        (exists n, tt_state x' = TIncomplete n /\ (l = false -> length c < n -> False))
    | (StepPanic, w') => y = (StepPanic, w')
    | (StepNoFuel, _) => True
    end.

  Lemma waits_alike : forall x w y, tt_state x = TIncomplete 1 -> steps_alike (Combinators.Stop x, w) y.
  Proof. intros x w y Hx. cbn. right. exists 1. split; [exact Hx|]. intros H1 H2. specialize (Hlc H1). lia. Qed.

  Lemma go_alike : forall x y w, tt_state x = TIncomplete 1 -> tt_state y = TIncomplete 1 -> tt_data x = tt_data y -> ext l c (tt_buf x) (tt_buf y) ->
    steps_alike (after_pre (PreGo x, w)) (after_pre (PreGo y, w)).
  Proof.
    intros [xs [] [] [lx b] xd] [ys [] [] yb yd] w Hx Hy Hda [H1 H2]; cbn [tt_state tt_ps tt_data tt_buf tt_es last buf] in *; subst.
    unfold after_pre. cbn [tt_state tt_ps tt_data tt_buf tt_es]. pose proof (Hp w b l c) as Hf. pose proof (Hw w (mkInput false b)) as Hh.
    destruct (p w (mkInput false b)) as [[j v|r e|n| |] w1]; cbn [upholds_w fst honest] in *.
    - rewrite Hf. eexists. split; [reflexivity|]. cbn [tt_state tt_data tt_buf]. unfold ext. cbn [buf last]. destruct Hh. auto.
    - rewrite Hf. left. eexists _, _. split; [reflexivity|]. cbn [tt_state tt_data tt_buf tst_rel]. unfold ext. cbn [buf last]. auto.
    - destruct (bool_dec l false) as [Hl|Hl]; [destruct (lt_dec (length c) n) as [Hlt|Hlt]|].
      + destruct (Hf Hl Hlt) as [m Hm]. destruct (p w (mkInput l (b ++ c))) as [r2 w2]. cbn [fst] in Hm. subst r2. left. eexists _, _. split; [reflexivity|].
        cbn [tt_state tt_data tt_buf tst_rel]. unfold ext. cbn [buf last]. repeat split. intros Hno. exfalso. eapply Hno. reflexivity.
      + right. eexists. split; [reflexivity|]. intros; lia.
      + right. eexists. split; [reflexivity|]. intros; congruence.
    - rewrite Hf. reflexivity.
    - exact Logic.I.
  Qed.

  (** A test of the end, then [k]. *)
  Lemma test_alike : forall (k : it -> W -> pre_res it * W) x y w, tt_state x = TIncomplete 1 -> tt_state y = TIncomplete 1 -> tt_data x = tt_data y ->
    ext l c (tt_buf x) (tt_buf y) ->
    (forall w, steps_alike (after_pre (k x w)) (after_pre (k y w))) ->
    (forall n w1, end_ w (tt_buf x) = (Incomplete n, w1) -> steps_alike (after_pre (k x w1)) (after_pre (pre_seq_w (end_test_w end_ y w) k))) ->
    steps_alike (after_pre (pre_seq_w (end_test_w end_ x w) k)) (after_pre (pre_seq_w (end_test_w end_ y w) k)).
  Proof.
    intros k [xs [] [] [lx b] xd] [ys [] [] yb yd] w Hx Hy Hda [H1 H2] Hk Hi; cbn [tt_state tt_ps tt_data tt_buf tt_es last buf] in *; subst.
    pose proof (He w b l c) as Hf. pose proof (Ew w (mkInput false b)) as Hh. unfold end_test_w in *. cbn [tt_state tt_ps tt_data tt_buf tt_es] in *.
    destruct (end_ w (mkInput false b)) as [[j v|r e|n| |] w1]; cbn [upholds_w fst honest pre_seq_w] in *.
    - rewrite Hf. cbn [pre_seq_w after_pre]. left. eexists _, _. split; [reflexivity|]. cbn [tt_state tt_data tt_buf tst_rel]. unfold ext. cbn [buf last]. destruct Hh. auto.
    - rewrite Hf. cbn [pre_seq_w]. apply Hk.
    - eapply Hi. reflexivity.
    - rewrite Hf. reflexivity.
    - exact Logic.I.
  Qed.

  Lemma test_go_alike : forall x y w, tt_state x = TIncomplete 1 -> tt_state y = TIncomplete 1 -> tt_data x = tt_data y -> ext l c (tt_buf x) (tt_buf y) ->
    steps_alike (after_pre (pre_seq_w (end_test_w end_ x w) (fun it w => (PreGo it, w)))) (after_pre (pre_seq_w (end_test_w end_ y w) (fun it w => (PreGo it, w)))).
  Proof.
    intros x y w Hx Hy Hda Hb. apply test_alike; auto; [intros; apply go_alike; assumption|]. intros n w1 Hn.
    destruct x as [xs [] [] [lx b] xd], y as [ys [] [] yb yd]; destruct Hb as [H1 H2]; cbn [tt_state tt_ps tt_data tt_buf tt_es last buf] in *; subst.
    destruct (Hd Hn) as (_ & m & Hm & Hle). unfold after_pre at 1. cbn [tt_state tt_ps tt_data tt_buf tt_es].
    destruct (p w1 (mkInput false b)) as [r1 w2]. cbn [fst] in Hm. subst r1.
    destruct (bool_dec l false) as [Hl|Hl]; [destruct (lt_dec (length c) m) as [Hlt|Hlt]|].
    - pose proof (He w b l c) as Hf. rewrite Hn in Hf. cbn [upholds_w] in Hf. destruct (Hf Hl ltac:(lia)) as [n2 Hn2]. unfold end_test_w. cbn [tt_state tt_ps tt_data tt_buf tt_es].
      rewrite Hl in *. destruct (end_ w (mkInput false (b ++ c))) as [r2 w3] eqn:H2. cbn [fst] in Hn2. subst r2. destruct (Hd H2) as (_ & m2 & Hm2 & _).
      cbn [pre_seq_w]. unfold after_pre. cbn [tt_state tt_ps tt_data tt_buf tt_es]. destruct (p w3 (mkInput false (b ++ c))) as [r3 w4]. cbn [fst] in Hm2. subst r3.
      left. eexists _, _. split; [reflexivity|]. cbn [tt_state tt_data tt_buf tst_rel]. unfold ext. cbn [buf last]. repeat split; solve [auto|rewrite Hl; reflexivity|intros Hno; exfalso; eapply Hno; reflexivity].
    - right. eexists. split; [reflexivity|]. intros; lia.
    - right. eexists. split; [reflexivity|]. intros; congruence.
  Qed.

  Lemma test_none_alike : forall x y w, tt_state x = TIncomplete 1 -> tt_state y = TIncomplete 1 -> tt_data x = tt_data y -> ext l c (tt_buf x) (tt_buf y) ->
    steps_alike (after_pre (pre_seq_w (end_test_w end_ x w) (fun it w => (PreNone it, w)))) (after_pre (pre_seq_w (end_test_w end_ y w) (fun it w => (PreNone it, w)))).
  Proof. intros x y w Hx Hy Hda Hb. apply test_alike; auto; intros; apply waits_alike; assumption. Qed.

  Lemma twice_alike : forall x y w, tt_state x = TIncomplete 1 -> tt_state y = TIncomplete 1 -> tt_data x = tt_data y -> ext l c (tt_buf x) (tt_buf y) ->
    steps_alike (after_pre (pre_seq_w (end_test_w end_ x w) (fun it w => pre_seq_w (end_test_w end_ it w) (fun it w => (PreNone it, w)))))
                (after_pre (pre_seq_w (end_test_w end_ y w) (fun it w => pre_seq_w (end_test_w end_ it w) (fun it w => (PreNone it, w))))).
  Proof.
    intros x y w Hx Hy Hda Hb. apply test_alike; auto; [intros; apply test_none_alike; assumption|]. intros n w1 Hn.
    destruct x as [xs [] [] [lx b] xd]; destruct Hb as [H1 H2]; cbn [tt_state tt_ps tt_data tt_buf tt_es last buf] in *; subst.
    destruct (Hd Hn) as ((n' & Hn') & _). unfold end_test_w at 1. cbn [tt_state tt_ps tt_data tt_buf tt_es].
    destruct (end_ w1 (mkInput false b)) as [r1 w2]. cbn [fst] in Hn'. subst r1. cbn [pre_seq_w after_pre]. apply waits_alike. reflexivity.
  Qed.
End TillSteps.

Lemma seq_go : forall W It (x : pre_res It * W), pre_seq_w x (fun it w => (PreGo it, w)) = x.
Proof. intros W It [[?|?| |] w]; reflexivity. Qed.
Lemma seq_at : forall W I V N E D (end_ : sparser W I V N) (x : iter_till unit unit I E D) w k k', (forall w, k x w = k' x w) ->
  pre_seq_w (end_test_w end_ x w) k = pre_seq_w (end_test_w end_ x w) k'.
Proof. intros W I V N E D end_ x w k k' H. unfold end_test_w. destruct (end_ w (tt_buf x)) as [[j v|r e|n| |] w1]; cbn [pre_seq_w]; auto. Qed.

Lemma bmany_till_firm : forall W I U V T E N C fuel (col : collector U T C) r (p : sparser W I U E) (end_ : sparser W I V N),
  exhausts col -> firm p -> decisive_w p end_ -> (forall w i, honest i (fst (p w i))) -> (forall w i, honest i (fst (end_ w i))) -> firm end_ ->
  (forall w i, honest i (fst (bmany_till_w fuel col p end_ r w i))) ->
  firm (bmany_till_w fuel col p end_ r).
Proof.
  intros W I U V T E N C fuel col r p end_ Hcol Hf Hd Hw Ew Es Hh w b l c.
  assert (Hlc : (l = false -> 1 <= length c) \/ (l = false /\ c = [])).
  { destruct l; [left; discriminate|]. destruct c; [right; auto|left; cbn [length]; lia]. }
  destruct Hlc as [Hlc|[-> ->]].
  2: { rewrite app_nil_r. specialize (Hh w (mkInput false b)). destruct (bmany_till_w fuel col p end_ r w (mkInput false b)) as [[[jl jb] v|r1 e|n| |] w1]; cbn [upholds_w fst honest buf last] in *; rewrite ?app_nil_r; eauto.
       destruct Hh as [-> _]. reflexivity. }
  Ltac till_like p l c := intros x y w0 Hx Hy Hda Hb;
    match goal with |- context [iter_till_next_w p ?pre ?on x w0] => change (steps_alike l c (after_pre p on (pre x w0)) (after_pre p on (pre y w0))) end;
    cbn beta; rewrite <- ?Hda.
  Ltac till_at end_ x y w0 k' Hda Hz :=
    rewrite (@seq_at _ _ _ _ _ _ end_ x w0 _ k') by (intros; cbn beta; rewrite Hz; reflexivity);
    rewrite (@seq_at _ _ _ _ _ _ end_ y w0 _ k') by (intros; cbn beta; rewrite <- ?Hda, Hz; reflexivity).
  destruct r as [a a'|a| |a'|n]; cbn [bmany_till_w].
  - destruct (negb (a <=? a')); [reflexivity|].
    apply run_iter_till_firm; auto; [|till_fin|till_inc].
    till_like p l c. destruct (fst (tt_data x) =? 0) eqn:Hz1, (snd (tt_data x) =? 0) eqn:Hz2.
    + till_at end_ x y w0 (fun it w => pre_seq_w (end_test_w end_ (E := E) (D := nat * nat) it w) (fun it w => (PreNone it, w))) Hda Hz2. apply twice_alike; auto.
    + till_at end_ x y w0 (fun (it : iter_till unit unit I E (nat * nat)) (w : W) => (PreGo it, w)) Hda Hz2. apply test_go_alike; auto.
    + cbn [pre_seq_w]. rewrite <- Hda, Hz2. apply test_none_alike; auto.
    + cbn [pre_seq_w]. rewrite <- Hda, Hz2. apply go_alike; auto.
  - apply run_iter_till_firm; auto; [|till_fin|till_inc].
    till_like p l c. destruct (tt_data x =? 0); [|apply go_alike; auto]. rewrite <- (seq_go (end_test_w end_ x w0)), <- (seq_go (end_test_w end_ y w0)). apply test_go_alike; auto.
  - apply run_iter_till_firm; auto; [|till_fin].
    till_like p l c. rewrite <- (seq_go (end_test_w end_ x w0)), <- (seq_go (end_test_w end_ y w0)). apply test_go_alike; auto.
  - apply run_iter_till_firm; auto; [|till_fin|till_inc].
    till_like p l c. destruct (tt_data x =? 0) eqn:Hz.
    + till_at end_ x y w0 (fun (it : iter_till unit unit I E nat) (w : W) => (PreNone it, w)) Hda Hz. apply test_none_alike; auto.
    + till_at end_ x y w0 (fun (it : iter_till unit unit I E nat) (w : W) => (PreGo it, w)) Hda Hz. apply test_go_alike; auto.
  - apply run_iter_till_firm; auto; [|till_fin|till_inc].
    till_like p l c. destruct (tt_data x =? 0); [|apply go_alike; auto]. apply test_none_alike; auto.
Qed.

(** * sep_by *)
Section Seps.
  Context {W I U V E N : Type}.
  Variable conv : callback W N E.
  Variable p : sparser W I U E.
  Variable sep : sparser W I V N.
  Hypothesis Hp : firm p.
  Hypothesis Hs : firm sep.
  Hypothesis Wp : forall w i, honest i (fst (p w i)).
  Hypothesis Ws : forall w i, honest i (fst (sep w i)).

  Lemma then_item_firm : forall item w j l c, last j = false ->
    let run i := let (r1, w) := then_w conv (ret tt i) p w in
                 let (r2, item) := inspect_w (fun _ _ => (Some tt, true)) r1 item in (r2, (item, w)) in
    upholds_w l c (run j) (run (mkInput l (buf j ++ c))).
  Proof.
    intros item w [lj bj] l c Hj. cbn [last] in Hj. subst lj. unfold then_w, bind_w, ret. cbn [buf].
    specialize (@Hp w bj l c). destruct (p w (mkInput false bj)) as [[j v|r e|n| |] w1]; cbn [upholds_w] in Hp.
    - rewrite Hp. reflexivity.
    - rewrite Hp. reflexivity.
    - cbn. intros Hl Hn. destruct (Hp Hl Hn) as [m Hm]. destruct (p w (mkInput l (bj ++ c))) as [r2 w2]. cbn [fst] in Hm. subst r2. cbn. eauto.
    - rewrite Hp. reflexivity.
    - exact Logic.I.
  Qed.

  Lemma sep_item_firm : firm (sep_item_w conv p sep).
  Proof.
    intros [item w] b l c. unfold sep_item_w. destruct item.
    - specialize (@Hs w b l c). specialize (@Ws w (mkInput false b)). destruct (sep w (mkInput false b)) as [[j v|r e|n| |] w1]; cbn [upholds_w fst honest] in Hs, Ws.
      + rewrite Hs. cbn [map_w]. destruct Ws as [Hj _]. apply (@then_item_firm true w1 j l c Hj).
      + rewrite Hs. cbn. destruct (conv e w1) as [[x|] w2]; reflexivity.
      + cbn. intros Hl Hn. destruct (Hs Hl Hn) as [m Hm]. destruct (sep w (mkInput l (b ++ c))) as [r2 w2]. cbn [fst] in Hm. subst r2. cbn. eauto.
      + rewrite Hs. reflexivity.
      + exact Logic.I.
    - apply (@then_item_firm false w (mkInput false b) l c eq_refl).
  Qed.

  Lemma sep_item_honest_w : forall w i, honest i (fst (sep_item_w conv p sep w i)).
  Proof.
    intros [item w] i. unfold sep_item_w. specialize (@Ws w i). destruct item.
    - destruct (sep w i) as [[j v|r e|n| |] w1]; cbn [fst honest] in Ws; cbn; auto.
      + destruct Ws as [H1 H2]. specialize (Wp w1 j). destruct (p w1 j) as [[j2 v2|r e|n| |] w2]; cbn in *; auto.
        * destruct Wp as [G1 G2]. split; [congruence|]. exact (suffix_trans G2 H2).
        * exact (suffix_trans Wp H2).
      + destruct (conv e w1) as [[x|] w2]; cbn; auto.
    - cbn. specialize (Wp w i). destruct (p w i) as [[j2 v2|r e|n| |] w2]; cbn in *; auto.
  Qed.
End Seps.

Lemma sep_firm : forall W I U V T E N C fuel (col : collector U T C) conv (p : sparser W I U E) (sep : sparser W I V N) r, exhausts col -> firm p -> firm sep ->
  (forall w i, honest i (fst (p w i))) -> (forall w i, honest i (fst (sep w i))) ->
  firm (fun w i => let '(r, (_, w)) := bmany_w fuel col (sep_item_w conv p sep) r (false, w) i in (r, w)).
Proof.
  intros W I U V T E N C fuel col conv p sep r Hcol Hp Hs Wp Ws w b l c.
  pose proof (bmany_firm fuel r Hcol (sep_item_firm conv Hp Hs Ws) (sep_item_honest_w conv p sep Wp Ws) (false, w) b l c) as H.
  destruct (bmany_w fuel col (sep_item_w conv p sep) r (false, w) (mkInput false b)) as [[j v|q e|n| |] [it1 w1]]; cbn [upholds_w] in *.
  - rewrite H. reflexivity.
  - rewrite H. reflexivity.
  - intros Hl Hn. destruct (H Hl Hn) as [m Hm]. destruct (bmany_w fuel col (sep_item_w conv p sep) r (false, w) (mkInput l (b ++ c))) as [r2 [it2 w2]]. cbn [fst] in *. eauto.
  - rewrite H. reflexivity.
  - exact Logic.I.
Qed.

(** * Searching *)

Lemma position_w_app : forall W A (f : callback W A bool) b c w, match position_w f b w with
  | (Some (Some n), w') => position_w f (b ++ c) w = (Some (Some n), w') /\ n <= length b
  | (Some None, _) => True
  | (None, w') => position_w f (b ++ c) w = (None, w')
  end.
Proof.
  induction b as [|x r IH]; intros c w; [exact Logic.I|]. cbn [position_w app]. destruct (f x w) as [[[]|] w1]; [split; [reflexivity|lia]| |reflexivity].
  specialize (IH c w1). destruct (position_w f r w1) as [[[n|]|] w2]; cbn [option_map]; [|exact Logic.I|rewrite IH; reflexivity].
  destruct IH as [-> Hn]. cbn [option_map length]. split; [reflexivity|lia].
Qed.

Lemma string_mismatch_w_bound : forall W I (ne : callback W (I * I) bool) s d k w j w', string_mismatch_w ne k s d w = (Some (Some j), w') -> j < k + length s.
Proof.
  induction s as [|x s IH]; intros [|y d] k w j w' H; cbn [string_mismatch_w] in H; try discriminate.
  destruct (ne (x, y) w) as [[[]|] w1]; [injection H as <- _; cbn [length]; lia| |discriminate]. apply IH in H. cbn [length]. lia.
Qed.

Lemma upholds_w_one : forall W I T E (w : W) (p : sparser W I T E) b l c, fst (p w (mkInput false b)) = Incomplete 1 ->
  upholds_w l c (p w (mkInput false b)) (p w (mkInput l (b ++ c))).
Proof.
  intros W I T E w p b l c H. destruct (p w (mkInput false b)) as [r w1] eqn:Hp. cbn [fst] in H. subst r. cbn [upholds_w]. intros -> Hc. destruct c; [|cbn in Hc; lia].
  rewrite app_nil_r, Hp. cbn. eauto.
Qed.

(** * Expressions *)

Lemma keeping_over : forall W I T E (p : sparser W I T E), keeping p -> over (fun _ _ : W => True) p.
Proof.
  intros W I T E p H. induction H;
    try (constructor; solve [auto | unfold acts; auto | intros; unfold acts; auto | apply safe_built; auto]).
  - eapply o_ext; eauto.
  - apply o_user; [unfold moves; auto|assumption].
Qed.

Lemma keeping_honest : forall W I T E (p : sparser W I T E), keeping p -> forall w i, honest i (fst (p w i)).
Proof.
  intros W I T E p H w i. destruct (@over_moves W I (fun _ _ => True) T E p) as [_ G]; [split; auto|apply keeping_over; assumption|apply G].
Qed.

Ltac grab H b l c := match goal with |- context [?p ?w (mkInput false b)] => specialize (H w b l c); destruct (p w (mkInput false b)) as [[?j ?t|?r ?e|?n| |] ?w1] eqn:?; cbn [upholds_w] in H end.
Ltac later H := cbn; intros ?Hl ?Hn; let m := fresh "m" in let Hm := fresh "Hm" in destruct (H Hl Hn) as [m Hm];
  match goal with |- context [?p ?w (mkInput ?l ?d)] => destruct (p w (mkInput l d)) as [?r2 ?w2] end; cbn [fst] in Hm; subst; cbn; unfold incomplete; eauto.
Ltac dead H := rewrite H; reflexivity.

Theorem keeping_firm : forall W I T E (p : sparser W I T E), keeping p -> firm p.
Proof.
  intros W I T E p H. induction H; try (intros w b l c).
  - rewrite <- !H0. apply IHkeeping.
  - apply H.
  - pose proof (safe_stable H b l c) as Hs. unfold lifted. destruct (p (mkInput false b)); cbn [upholds upholds_w fst] in *; auto; rewrite Hs; reflexivity.
  - grab IHkeeping b l c; [|rewrite IHkeeping; reflexivity|later IHkeeping|dead IHkeeping|exact Logic.I].
    rewrite IHkeeping. cbn [map_w]. destruct (f t w1) as [[u|] w2]; reflexivity.
  - grab IHkeeping b l c; [rewrite IHkeeping; reflexivity| |later IHkeeping|dead IHkeeping|exact Logic.I].
    rewrite IHkeeping. cbn [map_err_w]. destruct (f e w1) as [[u|] w2]; reflexivity.
  - grab IHkeeping b l c; [|rewrite IHkeeping; reflexivity|later IHkeeping|dead IHkeeping|exact Logic.I].
    rewrite IHkeeping. cbn [inspect_w]. destruct (f t w1) as [[u|] w2]; reflexivity.
  - pose proof (keeping_honest H w (mkInput false b)) as Hh. grab IHkeeping b l c; [| |later IHkeeping|dead IHkeeping|exact Logic.I].
    + rewrite IHkeeping. cbn [bind_w]. cbn [fst honest last] in Hh. destruct j as [lj bj]. cbn [last buf] in *. destruct Hh as [-> _].
      specialize (H1 t). grab H1 bj l c; [rewrite H1; reflexivity|rewrite H1; reflexivity|later H1|dead H1|exact Logic.I].
    + rewrite IHkeeping. cbn [bind_w]. destruct (conv e w1) as [[u|] w2]; reflexivity.
  - pose proof (keeping_honest H w (mkInput false b)) as Hh. grab IHkeeping1 b l c; [| |later IHkeeping1|dead IHkeeping1|exact Logic.I].
    + rewrite IHkeeping1. unfold then_w. cbn [bind_w]. cbn [fst honest last] in Hh. destruct j as [lj bj]. cbn [last buf] in *. destruct Hh as [-> _].
      grab IHkeeping2 bj l c; [rewrite IHkeeping2; reflexivity|rewrite IHkeeping2; reflexivity|later IHkeeping2|dead IHkeeping2|exact Logic.I].
    + rewrite IHkeeping1. unfold then_w. cbn [bind_w]. destruct (conv e w1) as [[u|] w2]; reflexivity.
  - destruct b as [|x r]; [apply upholds_w_one; reflexivity|]. unfold satisfy_w. cbn. destruct (f x w) as [[[]|] w1]; reflexivity.
  - destruct b as [|x r]; [apply upholds_w_one; reflexivity|]. unfold satisfy_with_w. cbn. destruct (icl x w) as [[y|] w1]; [|reflexivity].
    destruct (f y w1) as [[z|] w2]; [|reflexivity]. destruct (tcl z w2) as [[z'|] w3]; [|reflexivity]. destruct (g z' w3) as [[[]|] w4]; reflexivity.
  - destruct b as [|x r]; [apply upholds_w_one; reflexivity|]. unfold token_w. cbn. destruct (eq (t, x) w) as [[[]|] w1]; reflexivity.
  - destruct b as [|x r]; [apply upholds_w_one; reflexivity|]. unfold not_token_w. cbn. destruct (ne (t, x) w) as [[[]|] w1]; reflexivity.
  - pose proof (position_w_app (is_false f) b c w) as Hp. destruct (position_w (is_false f) b w) as [[[n|]|] w1] eqn:Hn.
    + destruct Hp as [Hp Hl]. unfold take_while_w. cbn [buf last]. rewrite Hn, Hp. unfold ret, replace. cbn [upholds_w buf last]. rewrite firstn_app_le, skipn_app_le by lia. reflexivity.
    + apply upholds_w_one. unfold take_while_w. cbn [buf last]. rewrite Hn. reflexivity.
    + unfold take_while_w. cbn [buf last]. rewrite Hn, Hp. reflexivity.
  - pose proof (position_w_app (is_false f) b c w) as Hp. destruct (position_w (is_false f) b w) as [[[n|]|] w1] eqn:Hn.
    + destruct Hp as [Hp Hl]. unfold take_while1_w. cbn [buf last]. rewrite Hn, Hp. destruct n as [|n]; [reflexivity|]. unfold ret, replace. cbn [upholds_w buf last]. rewrite firstn_app_le, skipn_app_le by lia. reflexivity.
    + apply upholds_w_one. unfold take_while1_w. cbn [buf last]. rewrite Hn, andb_false_r. reflexivity.
    + unfold take_while1_w. cbn [buf last]. rewrite Hn, Hp. reflexivity.
  - pose proof (position_w_app (cloned_then icl f) b c w) as Hp. destruct (position_w (cloned_then icl f) b w) as [[[n|]|] w1] eqn:Hn.
    + destruct Hp as [Hp Hl]. unfold take_till_w. cbn [buf last]. rewrite Hn, Hp. unfold ret, replace. cbn [upholds_w buf last]. rewrite firstn_app_le, skipn_app_le by lia. reflexivity.
    + apply upholds_w_one. unfold take_till_w. cbn [buf last]. rewrite Hn. reflexivity.
    + unfold take_till_w. cbn [buf last]. rewrite Hn, Hp. reflexivity.
  - unfold scan_w. cbn [buf last]. match goal with |- context [position_w ?g b ?x] => pose proof (position_w_app g b c x) as Hp; destruct (position_w g b x) as [[[n|]|] [s1 w1]] eqn:Hn end.
    + destruct Hp as [Hp Hl]. rewrite Hp. unfold ret, replace. cbn [upholds_w buf last]. rewrite firstn_app_le, skipn_app_le by lia. reflexivity.
    + cbn [upholds_w incomplete]. intros _ Hc. destruct c; [|cbn in Hc; lia]. rewrite app_nil_r, Hn. eexists. reflexivity.
    + rewrite Hp. reflexivity.
  - unfold run_scanner_w. cbn [buf last]. match goal with |- context [position_w ?g b ?x] => pose proof (position_w_app g b c x) as Hp; destruct (position_w g b x) as [[[n|]|] [s1 w1]] eqn:Hn end.
    + destruct Hp as [Hp Hl]. rewrite Hp. unfold ret, replace. cbn [upholds_w buf last]. rewrite firstn_app_le, skipn_app_le by lia. reflexivity.
    + cbn [upholds_w incomplete]. intros _ Hc. destruct c; [|cbn in Hc; lia]. rewrite app_nil_r, Hn. eexists. reflexivity.
    + rewrite Hp. reflexivity.
  - unfold string_w. cbn [buf]. rewrite app_length. destruct (Nat.ltb_spec (length b) (length s)).
    + cbn [upholds_w incomplete]. intros _ Hn. destruct (Nat.ltb_spec (length b + length c) (length s)); [|lia]. eexists. reflexivity.
    + destruct (Nat.ltb_spec (length b + length c) (length s)); [lia|]. rewrite firstn_app_le by lia.
      destruct (string_mismatch_w ne 0 s (firstn (length s) b) w) as [[[j|]|] w1] eqn:Hj; [| |reflexivity].
      * apply string_mismatch_w_bound in Hj. cbn in Hj. unfold err_string. destruct v; [reflexivity|]. unfold err, replace. cbn [upholds_w buf last].
        rewrite skipn_app_le by lia. reflexivity.
      * unfold ret, replace. cbn [upholds_w buf last]. rewrite skipn_app_le by lia. reflexivity.
  - unfold option_w. grab IHkeeping b l c; [rewrite IHkeeping; reflexivity|rewrite IHkeeping; reflexivity| |dead IHkeeping|exact Logic.I].
    cbn. intros -> Hn. destruct (IHkeeping eq_refl Hn) as [m Hm]. destruct (p w (mkInput false (b ++ c))) as [r2 w2]. cbn [fst] in Hm. subst r2. cbn. eauto.
  - unfold or_w. grab IHkeeping1 b l c; [rewrite IHkeeping1; reflexivity|rewrite IHkeeping1; apply IHkeeping2| |dead IHkeeping1|exact Logic.I].
    cbn. intros -> Hn. destruct (IHkeeping1 eq_refl Hn) as [m Hm]. destruct (p w (mkInput false (b ++ c))) as [r2 w2]. cbn [fst] in Hm. subst r2. cbn. eauto.
  - unfold matched_by_w. pose proof (keeping_honest H w (mkInput false b)) as Hh. grab IHkeeping b l c; [|rewrite IHkeeping; reflexivity|later IHkeeping|dead IHkeeping|exact Logic.I].
    rewrite IHkeeping. cbn [fst honest last buf] in Hh. destruct Hh as [_ Hsuf]. apply suffix_length in Hsuf. cbn [buf]. rewrite !app_length.
    destruct (Nat.ltb_spec (length b) (length (buf j))); [lia|]. destruct (Nat.ltb_spec (length b + length c) (length (buf j) + length c)); [lia|].
    replace (length b + length c - (length (buf j) + length c)) with (length b - length (buf j)) by lia.
    unfold ret. cbn [upholds_w]. rewrite firstn_app_le by lia. reflexivity.
  - unfold look_ahead_w. grab IHkeeping b l c; [rewrite IHkeeping; reflexivity|rewrite IHkeeping; reflexivity|later IHkeeping|dead IHkeeping|exact Logic.I].
  - apply bmany_firm; auto. apply keeping_honest; assumption.
  - apply bskip_firm; [assumption|apply keeping_honest; assumption].
  - apply bmany_till_firm; auto; try (apply keeping_honest; assumption). apply keeping_honest. apply k_bmany_till; assumption.
  - apply sep_firm; auto; apply keeping_honest; assumption.
  - apply sep_firm; auto; apply keeping_honest; assumption.
Qed.

(** * Streams *)

(** The same parser without a world: it shows the world it leaves with its value or error. *)
Definition showing {W I T E} (p : sparser W I T E) (w : W) : parser I (T * W) (E * W) := fun i =>
  match p w i with
  | (Data j t, w1) => Data j (t, w1)
  | (Error b e, w1) => Error b (e, w1)
  | (Incomplete n, _) => Incomplete n
  | (Panic, _) => Panic
  | (NoFuel, _) => NoFuel
  end.
Definition plain {W I T E} (r : sres I (T * W) (E * W)) : sres I T E :=
  match r with
  | inl (t, _) => inl t
  | inr (SParseError b (e, _)) => inr (SParseError b e)
  | inr (SIncomplete n) => inr (SIncomplete n)
  | inr SEndOfInput => inr SEndOfInput
  | inr (SIoError e) => inr (SIoError e)
  | inr SRetry => inr SRetry
  end.
Definition shown {W I T E} (w : W) (r : sres I (T * W) (E * W)) : W :=
  match r with
  | inl (_, w1) => w1
  | inr (SParseError _ (_, w1)) => w1
  | _ => w
  end.

(** A call that shows the world, and one that acts on it. *)
Definition agree {W X I T E} (w : W) (a : run (X * sres I (T * W) (E * W))) (b : run (X * sres I T E) * W) : Prop :=
  match a with
  | Done (x, r) => b = (Done (x, plain r), shown w r)
  | Panicked => fst b = Panicked
  | Undefined => fst b = Undefined
  | Stuck => fst b = Stuck
  end.

Lemma slice_agree : forall W I T E (p : sparser W I T E) s w, tentative_at w p -> agree w (slice_parse (showing p w) s) (slice_parse_w p s w).
Proof.
  intros W I T E p s w Ht. unfold slice_parse, slice_parse_w, showing. destruct (slice_is_empty s) as [[]| | |]; cbn [run_bind]; try reflexivity.
  specialize (Ht (mkInput true (skipn (ss_pos s) (ss_slice s)))).
  destruct (p w (mkInput true (skipn (ss_pos s) (ss_slice s)))) as [[j t|b e|n| |] w1]; cbn [fst snd] in Ht; try reflexivity.
  - destruct (slice_len s) as [k| | |]; cbn [run_bind agree fst]; try reflexivity. destruct (usize_sub k (length (buf j))) as [m| | |]; reflexivity.
  - destruct (slice_len s) as [k| | |]; cbn [run_bind agree fst]; try reflexivity. destruct (usize_sub k (length b)) as [m| | |]; reflexivity.
  - rewrite (Ht n eq_refl). destruct (slice_len s) as [k| | |]; reflexivity.
Qed.

Lemma src_agree : forall W St I B T E (ds : data_source St I) (ops : buffer_ops I B) (p : sparser W I T E) st w, tentative_at w p ->
  agree w (src_parse ds ops (showing p w) st) (src_parse_w ds ops p st w).
Proof.
  intros W St I B T E ds ops p st w Ht. unfold src_parse, src_parse_w, showing.
  destruct (if src_incomplete st && src_auto st then src_fill ds ops st else Done (st, IoOk 0)) as [[st1 [n|x]]| | |]; cbn [run_bind]; try reflexivity.
  destruct (src_is_empty ops st1) as [[]| | |]; cbn [run_bind]; try reflexivity.
  destruct (op_deref ops (src_buffer st1)) as [data| | |]; cbn [run_bind]; try reflexivity.
  specialize (Ht (mkInput (src_eoi st1) data)).
  destruct (p w (mkInput (src_eoi st1) data)) as [[j t|b e|m| |] w1]; cbn [fst snd] in Ht; try reflexivity.
  - destruct (op_len ops (src_buffer st1)) as [k| | |]; cbn [run_bind agree fst]; try reflexivity. destruct (usize_sub k (length (buf j))) as [m| | |]; cbn [run_bind agree fst]; try reflexivity.
    destruct (op_consume ops (src_buffer st1) m); reflexivity.
  - destruct (op_len ops (src_buffer st1)) as [k| | |]; cbn [run_bind agree fst]; try reflexivity. destruct (usize_sub k (length b)) as [m| | |]; cbn [run_bind agree fst]; try reflexivity.
    destruct (op_consume ops (src_buffer st1) m); reflexivity.
  - rewrite (Ht m eq_refl). destruct (op_len ops (src_buffer st1)) as [k| | |]; cbn [run_bind agree fst]; try reflexivity. destruct (src_eoi st1); reflexivity.
Qed.

Lemma insist_agree : forall W St I B T E (ds : data_source St I) (ops : buffer_ops I B) (p : sparser W I T E) w, tentative_at w p -> forall fuel st,
  agree w (insist ds ops fuel (showing p w) st) (insist_w ds ops fuel p st w).
Proof.
  intros W St I B T E ds ops p w Ht. induction fuel as [|fuel IH]; intros st; [reflexivity|]. cbn [insist insist_w].
  pose proof (src_agree ds ops st Ht) as H. destruct (src_parse ds ops (showing p w) st) as [[st1 r]| | |]; cbn [agree run_bind] in *.
  - rewrite H. destruct r as [[t w1]|[b [e w1]|n|x| |]]; cbn [plain shown]; try reflexivity; apply IH.
  - destruct (src_parse_w ds ops p st w) as [r w1]. cbn [fst] in H. subst r. reflexivity.
  - destruct (src_parse_w ds ops p st w) as [r w1]. cbn [fst] in H. subst r. reflexivity.
  - destruct (src_parse_w ds ops p st w) as [r w1]. cbn [fst] in H. subst r. reflexivity.
Qed.

Lemma plain_forget : forall W I T E (r : sres I (T * W) (E * W)), plain (forget r) = forget (plain r).
Proof. intros W I T E [[t w]|[b [e w]|n|x| |]]; reflexivity. Qed.
Lemma shown_forget : forall W I T E w (r : sres I (T * W) (E * W)), shown w (forget r) = shown w r.
Proof. intros W I T E w0 [[t w]|[b [e w]|n|x| |]]; reflexivity. Qed.

Lemma showing_suits : forall W I T E fits rest w (p : sparser W I T E), suits_w fits rest w p -> suits fits rest (showing p w).
Proof.
  intros W I T E fits rest w p [H1 H2 H3 H4 H5 H6]. split.
  - intros b l c. specialize (H1 b l c). unfold showing. destruct (p w (mkInput false b)) as [[j t|r e|n| |] w1]; cbn [upholds_w upholds] in *; auto.
    + rewrite H1. reflexivity.
    + rewrite H1. reflexivity.
    + intros Hl Hn. destruct (H1 Hl Hn) as [m Hm]. destruct (p w (mkInput l (b ++ c))) as [r2 w2]. cbn [fst] in Hm. subst r2. eauto.
    + rewrite H1. reflexivity.
  - intros i. specialize (H3 i). unfold showing. cbn beta in H3. destruct (p w i) as [[j t|r e|n| |] w1]; exact H3.
  - intros i. specialize (H4 i). unfold showing. destruct (p w i) as [[j t|r e|n| |] w1]; cbn [fst] in H4; congruence.
  - intros Hr. destruct (H5 Hr) as [n Hn]. exists n. unfold showing. destruct (p w (mkInput false [])) as [r w1]. cbn [fst] in Hn. subst r. reflexivity.
  - intros b c n Hr Hn. apply (H6 b c n Hr). unfold showing in Hn. destruct (p w (mkInput false b)) as [[j t|r e|m| |] w1]; try discriminate. injection Hn as ->. reflexivity.
Qed.

Section Work.
  Context {W St I B : Type}.
  Variable ds : data_source St I.
  Variables (ops : buffer_ops I B) (inv : B -> Prop) (view : B -> list I) (room : B -> nat) (fits : nat -> Prop).
  Hypothesis Q : queue_like ops inv view room fits.
  Hypothesis Ho : obeys ds.
  Hypothesis Hone : fits 1.
  Variable R : St -> list I -> nat -> Prop.
  Hypothesis HR : delivers ds R.

  Lemma source_work_spec : forall T E (c : work W I T E) fuel s st d e w, ss_pos s <= length (ss_slice s) -> stands inv view fits R st (rest_of s) d e ->
    work_suits fits s w c -> 2 * length d + e + 1 < fuel ->
    source_work ds ops fuel c st w = slice_work c s w.
  Proof.
    intros T E c fuel. induction c as [|f c IH|p k IH]; intros s st d e w Hpos Hst Hc Hf.
    - reflexivity.
    - inversion Hc as [|s1 w1 f1 c1 Hc1|]; subst. cbn [source_work slice_work]. exact (IH _ _ _ _ _ Hpos Hst Hc1 Hf).
    - inversion Hc as [| |s1 w1 p1 k1 Hsw Hk]; subst. fold (rest_of s) in Hsw. cbn [source_work slice_work].
      pose proof (showing_suits Hsw) as Hsu. pose proof (insist_agree ds ops (sw_tentative Hsw) fuel st) as Ai. pose proof (slice_agree s (sw_tentative Hsw)) as As.
      assert (Hm : measure view st d e < fuel) by (unfold measure; destruct (_ && _); lia).
      destruct (insist_spec Q Ho HR Hst Hsu Hm) as [(H1 & st' & d' & e' & H2 & H3 & H4 & H5)|[(H1 & H2 & H3)|(H1 & st' & d' & e' & out & rest' & out' & H2 & H3 & H4 & H5 & H6 & H7)]].
      + destruct (slice_parse_spec s Hpos (su_well_behaved Hsu)) as [[G1 G2]|[G1 _]]; [|contradiction].
        rewrite H2 in Ai. rewrite G2 in As. cbn [agree plain shown] in *. rewrite Ai, As. cbn [bare forget proceed].
        rewrite (IH _ w s st' d' e' w); auto; [|lia]. apply (Hk _ _ _ As).
      + destruct (slice_parse_spec s Hpos (su_well_behaved Hsu)) as [[G1 G2]|[_ [[G1 G2]|[[G1 G2]|(s' & out & G1 & G2 & G3 & G4)]]]]; try congruence.
        * rewrite H3 in Ai. rewrite G2 in As. cbn [agree] in *. destruct (insist_w ds ops fuel p st w) as [x1 w1]. destruct (slice_parse_w p s w) as [x2 w2]. cbn [fst] in *. subst. reflexivity.
        * rewrite H2 in G4. contradiction.
      + destruct (slice_parse_spec s Hpos (su_well_behaved Hsu)) as [[G1 G2]|[_ [[G1 G2]|[[G1 G2]|(s' & out2 & G1 & G2 & G3 & G4)]]]]; try congruence.
        * rewrite G1 in H6. contradiction.
        * rewrite G1 in H6. contradiction.
        * rewrite H2 in Ai. rewrite G1 in As. cbn [agree] in *. rewrite Ai, As.
          assert (Hw : rest_of s' = rest' /\ out2 = out').
          { destruct (showing p w (mkInput true (rest_of s))); cbn [whole] in *; try contradiction; destruct H6, G4; split; congruence. }
          destruct Hw as [Hw1 Hw2]. subst out2. cbn [bare proceed].
          pose proof (same_forget _ _ H7) as Hs.
          assert (E1 : forget (plain out) = forget (plain out')) by (rewrite <- !plain_forget, Hs; reflexivity).
          assert (E2 : shown w out = shown w out') by (rewrite <- (shown_forget w out), Hs; apply shown_forget).
          rewrite E1, E2. rewrite (IH _ _ s' st' d' e' (shown w out')); [reflexivity|assumption|rewrite Hw1; assumption|apply (Hk _ _ _ As)|lia].
  Qed.

  Lemma work_fresh : forall T E (c : work W I T E) s b0 data e fuel w, inv b0 -> view b0 = [] -> R s data e ->
    work_suits fits (slice_new data) w c -> 2 * length data + e + 2 <= fuel ->
    source_work ds ops fuel c (src_with_buffer s b0) w = slice_work c (slice_new data) w.
  Proof.
    intros T E c s b0 data e fuel w Hi Hv Hr Hc Hf. eapply source_work_spec with (d := data) (e := e); eauto; [cbn; lia| |lia].
    unfold stands. cbn [src_with_buffer src_buffer src_source src_auto src_eoi src_incomplete src_request slice_new].
    split; [assumption|]. split; [assumption|]. split; [rewrite Hv; reflexivity|]. split; [reflexivity|]. split; [discriminate|]. intros _.
    eapply (q_fits Q); [|exact Hone]. cbn [Nat.max]. apply Nat.le_min_l.
  Qed.
End Work.

(** * Tentative parsers *)

Lemma copy_firm : forall W I T E (p : sparser W I T E), firm p -> firm (on_a_copy p).
Proof.
  intros W I T E p H w b l c. specialize (H w b l c). unfold on_a_copy.
  destruct (p w (mkInput false b)) as [[j v|r e|n| |] w1]; cbn [upholds_w] in *; try (rewrite H; reflexivity); auto.
  - intros Hl Hn. destruct (H Hl Hn) as [m Hm]. destruct (p w (mkInput l (b ++ c))) as [r2 w2]. cbn [fst] in Hm. subst r2. cbn. eauto.
Qed.
