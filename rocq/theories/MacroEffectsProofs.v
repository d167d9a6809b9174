(** Proofs about user code with effects in [parse!] blocks (C80). *)
From Coq Require Import List Bool Arith Lia.
From Verif Require Import Base Parsers Combinators SpecBase SpecSafe Effects Macro MacroEffects SpecMacro MacroProofs SpecMacroEffects SpecKeep.
Import ListNotations.

Set Implicit Arguments.

Section Run.
  Context {W I V E : Type}.
  Variable m : meaning_w W I V E.

  Lemma map_err_w_id T (r : pres I T E) (w : W) : map_err_w (fun v w => (Some v, w)) r w = (r, w).
  Proof. destruct r; reflexivity. Qed.

  (** What an expression does, without variables for inputs. *)
  Definition seq_w (x : pres I V E * W) (k : V -> sparser W I V E) : pres I V E * W :=
    match x with
    | (Data i v, w) => k v w i
    | x => x
    end.
  Definition keep_w (v : V) (x : pres I V E * W) : pres I V E * W :=
    match x with
    | (Data i _, w) => (Data i v, w)
    | x => x
    end.
  Fixpoint act (e : expr) (rho : @env V) : sparser W I V E := fun w i =>
    match e with
    | EThen a b => seq_w (act a rho w i) (fun _ => act b rho)
    | EAlt a b => or_w (act a rho) (act b rho) w i
    | ESkip a b => seq_w (act a rho w i) (fun v w j => keep_w v (act b rho w j))
    | ERet e | ERetTyped _ _ e => ret_w (w_value m rho e) w i
    | EErr e | EErrTyped _ _ e => err_w (w_error m rho e) w i
    | EInline s e => w_inline m rho s e w i
    | ENamed f ps => w_call m rho f ps w i
    end.
  Fixpoint act_block (b : block) (rho : @env V) : sparser W I V E := fun w i =>
    match b with
    | BLast e => act e rho w i
    | BDo e k => seq_w (act e rho w i) (fun _ => act_block k rho)
    | BLet x e k => seq_w (act e rho w i) (fun v => act_block k (bound x v rho))
    end.

  Lemma bind_w_seq (r : pres I V E) (k : V -> sparser W I V E) w : bind_w (fun e w => (Some e, w)) r k w = seq_w (r, w) k.
  Proof. destruct r as [i v| | | |]; try reflexivity. cbn. destruct (k v w i) as [r w']. apply map_err_w_id. Qed.

  Lemma emit_act e : forall rho ins k w i, nth_error ins k = Some i -> eval_w m (emit k e) rho ins w = act e rho w i.
  Proof.
    induction e as [a IHa b IHb|a IHa b IHb|a IHa b IHb|v|t u v|v|t u v|s v|f ps]; intros rho ins k w i Hk; cbn [emit eval_w act];
      try (unfold with_input_w; rewrite Hk; reflexivity).
    - rewrite (IHa _ _ _ w _ Hk). destruct (act a rho w i) as [r w1]. rewrite bind_w_seq. destruct r; cbn; auto.
    - unfold with_input_w. rewrite Hk. unfold or_w. rewrite (IHa rho (i :: ins) 0 w i eq_refl).
      destruct (act a rho w i) as [[| |n| |] w1]; auto. destruct (last i); auto.
    - rewrite (IHa _ _ _ w _ Hk). destruct (act a rho w i) as [r w1]. rewrite bind_w_seq. destruct r as [j v| | | |]; cbn; auto.
      rewrite (IHb rho (j :: ins) 0 w1 j eq_refl). destruct (act b rho w1 j) as [[] w2]; reflexivity.
  Qed.
  Lemma emit_block_act b : forall rho ins k w i, nth_error ins k = Some i -> eval_w m (emit_block k b) rho ins w = act_block b rho w i.
  Proof.
    induction b as [e|e b IH|v e b IH]; intros rho ins k w i Hk; cbn [emit_block eval_w act_block].
    - apply emit_act, Hk.
    - rewrite (emit_act e rho _ _ w Hk). destruct (act e rho w i) as [r w1]. rewrite bind_w_seq. destruct r; cbn; auto.
    - rewrite (emit_act e rho _ _ w Hk). destruct (act e rho w i) as [r w1]. rewrite bind_w_seq. destruct r; cbn; auto.
  Qed.

  Lemma act_runs e : forall rho w i, runs_w m e rho w i (fst (act e rho w i)) (snd (act e rho w i)).
  Proof.
    induction e as [a IHa b IHb|a IHa b IHb|a IHa b IHb|v|t u v|v|t u v|s v|f ps]; intros rho w i; cbn [act].
    - specialize (IHa rho w i). destruct (act a rho w i) as [[j v|x y|n| |] w1]; cbn in *; [eapply rw_then; eauto|..];
        apply rw_then_fail; auto; intros ? ?; discriminate.
    - specialize (IHa rho w i). unfold or_w. destruct (act a rho w i) as [[j v|x y|n| |] w1]; cbn in *;
        try (apply rw_alt_stays; auto; intros; discriminate).
      + eapply rw_alt_error; eauto.
      + destruct (last i) eqn:El; [eapply rw_alt_end; eauto|]. cbn. apply rw_alt_stays; auto; intros; discriminate.
    - specialize (IHa rho w i). destruct (act a rho w i) as [[j v|x y|n| |] w1]; cbn in *;
        try (apply rw_skip_fail_l; auto; intros ? ?; discriminate).
      specialize (IHb rho w1 j). destruct (act b rho w1 j) as [[k u|x y|n| |] w2]; cbn in *; [eapply rw_skip; eauto|..];
        (eapply rw_skip_fail_r; eauto; intros ? ?; discriminate).
    - unfold ret_w. destruct (w_value m rho v w) as [[x|] w1] eqn:Ev; cbn; [apply rw_ret|apply rw_ret_panic]; auto.
    - apply rw_ret_typed. unfold ret_w. destruct (w_value m rho v w) as [[x|] w1] eqn:Ev; cbn; [apply rw_ret|apply rw_ret_panic]; auto.
    - unfold err_w. destruct (w_error m rho v w) as [[x|] w1] eqn:Ev; cbn; [apply rw_err|apply rw_err_panic]; auto.
    - apply rw_err_typed. unfold err_w. destruct (w_error m rho v w) as [[x|] w1] eqn:Ev; cbn; [apply rw_err|apply rw_err_panic]; auto.
    - apply rw_inline. apply surjective_pairing.
    - apply rw_named. apply surjective_pairing.
  Qed.

  Lemma runs_act e rho w i r w' : runs_w m e rho w i r w' -> act e rho w i = (r, w').
  Proof.
    intros H; induction H; cbn [act] in *; unfold ret_w, err_w, or_w in *;
      try rewrite IHruns_w; try rewrite IHruns_w1; try rewrite IHruns_w2; try rewrite H; auto.
    - destruct r; auto. exfalso. eapply H0. reflexivity.
    - destruct r as [| |n| |]; auto; [exfalso; eapply H0; reflexivity|]. rewrite (H1 _ eq_refl). reflexivity.
    - rewrite H0. auto.
    - cbn. rewrite IHruns_w2. reflexivity.
    - destruct r; auto. exfalso. eapply H0. reflexivity.
    - cbn. rewrite IHruns_w2. destruct r; auto. exfalso. eapply H1. reflexivity.
  Qed.

  Lemma act_block_runs b rc leaf trailing ts (Hg : g_block rc leaf trailing ts b) : forall rho w i,
    runs_block_w m b rho w i (fst (act_block b rho w i)) (snd (act_block b rho w i)).
  Proof.
    induction Hg as [l e He|l e Ht He|l e r k He Hk IH|v p l e r k Hv He Hk IH|v x ty l e r k Hv He Hk IH]; intros rho w i; cbn [act_block];
      try (apply rbw_last, act_runs);
      pose proof (act_runs e rho w i) as Ha; destruct (act e rho w i) as [[j y|s y|n| |] w1]; cbn in *;
      first [eapply rbw_do; now eauto | eapply rbw_let; now eauto | apply rbw_do_fail; auto; intros ? ?; discriminate
            | apply rbw_let_fail; auto; intros ? ?; discriminate].
  Qed.
  Lemma runs_block_act b rc leaf trailing ts (Hg : g_block rc leaf trailing ts b) : forall rho w i r w',
    runs_block_w m b rho w i r w' -> act_block b rho w i = (r, w').
  Proof.
    induction Hg as [l e He|l e Ht He|l e r0 k He Hk IH|v p l e r0 k Hv He Hk IH|v x ty l e r0 k Hv He Hk IH]; intros rho w i r w' H;
      inversion H; subst; cbn [act_block];
      match goal with Hr : runs_w _ _ _ _ _ _ _ |- _ => apply runs_act in Hr; rewrite Hr end; cbn [seq_w bound]; auto;
      match goal with Hf : failure ?r |- _ => destruct r; auto; exfalso; eapply Hf; reflexivity end.
  Qed.
End Run.

(** * Order *)

Lemma among_nil A (m : list A) : among [] m.
Proof. induction m; constructor; auto. Qed.
Lemma among_refl A (m : list A) : among m m.
Proof. induction m; constructor; auto. Qed.
Lemma among_app A (l l' m m' : list A) : among l m -> among l' m' -> among (l ++ l') (m ++ m').
Proof. intros H H'. induction H; cbn; [auto|constructor; auto..]. Qed.
Lemma among_left A (l m m' : list A) : among l m -> among l (m ++ m').
Proof. intros H. rewrite <- (app_nil_r l). apply among_app; [auto|apply among_nil]. Qed.
Lemma among_right A (l m m' : list A) : among l m' -> among l (m ++ m').
Proof. intros H. apply (@among_app _ [] l m m'); [apply among_nil|auto]. Qed.

Section Noted.
  Context {W I V E : Type}.
  Variable m : meaning_w W I V E.
  Notation record := (list (piece * ended)).

  (** The record of a run that ended with [e]: its last entry did so, the others ended in a way that lets the run go on. *)
  Definition kept_record (ok : ended -> Prop) (e : ended) (new : record) : Prop :=
    exists p before, new = before ++ [(p, e)] /\ Forall (fun x => ok (snd x)) before.

  Lemma kept_one ok p e : kept_record ok e [(p, e)].
  Proof. exists p, []. split; [reflexivity|constructor]. Qed.
  Lemma kept_app ok e1 new1 e2 new2 : kept_record ok e1 new1 -> ok e1 -> kept_record ok e2 new2 -> kept_record ok e2 (new1 ++ new2).
  Proof.
    intros [p1 [b1 [-> H1]]] Hok [p2 [b2 [-> H2]]]. exists p2, ((b1 ++ [(p1, e1)]) ++ b2). split; [apply app_assoc|].
    apply Forall_app. split; [|exact H2]. apply Forall_app. split; [exact H1|]. constructor; [exact Hok|constructor].
  Qed.

  (** [alts]: there may be alternatives; [asks]: a request may have been answered by the end of the input. *)
  Variables alts asks : bool.
  Definition goes_on (x : ended) : Prop := x = Well \/ (alts = true /\ x = Badly) \/ (alts = true /\ asks = true /\ x = Asking).
  Definition mode_kept (p : sparser W I V E) : Prop := forall w i j v, fst (p w i) = Data j v -> last j = last i.
  Hypothesis Hmode : asks = false -> terms_w m mode_kept.

  Definition recorded (ps : list piece) (i : input I) (x : pres I V E * W) (l : record) (y : pres I V E * (W * record)) : Prop :=
    (asks = false -> forall j v, fst x = Data j v -> last j = last i) /\
    exists new, y = (fst x, (snd x, l ++ new)) /\ among (List.map fst new) ps /\ kept_record goes_on (end_of (fst x)) new /\
      (alts = false -> exists rest, ps = List.map fst new ++ rest /\ (end_of (fst x) = Well -> rest = [])).

  Lemma recorded_seq ps1 ps2 i x1 l y1 (k : V -> sparser W I V E) k' :
    recorded ps1 i x1 l y1 -> (forall v w j l, (asks = false -> last i = last j) -> recorded ps2 j (k v w j) l (k' v (w, l) j)) ->
    recorded (ps1 ++ ps2) i (seq_w x1 k) l (seq_w y1 k').
  Proof.
    intros [Hm [new [-> [Ha [Hk Hs]]]]] Hn. destruct x1 as [[j v|b e|n| |] w1]; cbn in *;
      try (split; [auto|]; exists new; repeat split; auto using among_left; intros Hq; destruct (Hs Hq) as [rest [-> _]]; exists (rest ++ ps2);
           split; [symmetry; apply app_assoc|discriminate]).
    destruct (Hn v w1 j (l ++ new)) as [Hm' [new' [-> [Ha' [Hk' Hs']]]]]; [intros Hq; symmetry; eapply Hm; eauto|].
    split; [intros Hq j' v' Hd; rewrite (Hm' Hq _ _ Hd); eapply Hm; eauto|].
    exists (new ++ new'). rewrite app_assoc, map_app. repeat split; auto using among_app.
    - eapply kept_app; eauto. left. reflexivity.
    - intros Hq. destruct (Hs Hq) as [rest [-> Hr]]. rewrite (Hr eq_refl), app_nil_r. destruct (Hs' Hq) as [rest' [-> Hr']].
      exists rest'. split; [apply app_assoc|exact Hr'].
  Qed.
  Lemma recorded_keep ps i x l y v : recorded ps i x l y -> recorded ps i (keep_w v x) l (keep_w v y).
  Proof.
    intros [Hm [new [-> [Ha [Hk Hs]]]]]. destruct x as [[j u|b e|n| |] w1]; cbn in *; (split; [|exists new; auto]); auto.
    intros Hq j' v' [= <- <-]. eapply Hm; eauto.
  Qed.

  Lemma act_noted e : (alts = false -> straight e) -> forall rho w i l, (asks = false -> last i = false) ->
    recorded (pieces e) i (act m e rho w i) l (act (noted m) e rho (w, l) i).
  Proof.
    intros Hst. induction e as [a IHa b IHb|a IHa b IHb|a IHa b IHb|v|t u v|v|t u v|s v|f ps]; intros rho w i l Hl; cbn [act pieces].
    - apply recorded_seq.
      + apply IHa; auto. intros Hq. apply (Hst Hq).
      + intros v w1 j l1 Hj. apply IHb; [intros Hq; apply (Hst Hq)|]. intros Hq. rewrite <- (Hj Hq). auto.
    - assert (Hal : alts = true). { destruct alts; [reflexivity|]. destruct (Hst eq_refl). }
      assert (Hno : forall A B : Prop, (alts = false -> A) -> alts = false -> B) by (intros; congruence).
      destruct (IHa ltac:(intros; congruence) rho w i l Hl) as [Hm [new [Hy [Ha [Hk _]]]]]. unfold or_w. rewrite Hy.
      destruct (act m a rho w i) as [[j v|x y|n| |] w1]; cbn in *;
        try (split; [auto|]; exists new; repeat split; auto using among_left; intros; congruence).
      + destruct (IHb ltac:(intros; congruence) rho w1 i (l ++ new) Hl) as [Hm' [new' [-> [Ha' [Hk' _]]]]].
        split; [exact Hm'|]. exists (new ++ new'). rewrite app_assoc, map_app. repeat split; auto using among_app; [|intros; congruence].
        eapply kept_app; eauto. right. left. auto.
      + destruct (last i) eqn:El.
        * destruct (IHb ltac:(intros; congruence) rho w1 i (l ++ new) ltac:(rewrite El; exact Hl)) as [Hm' [new' [-> [Ha' [Hk' _]]]]].
          split; [intros Hq j' v' Hd; rewrite (Hm' Hq _ _ Hd); auto|]. exists (new ++ new'). rewrite app_assoc, map_app. repeat split; auto using among_app; [|intros; congruence].
          eapply kept_app; eauto. right. right. repeat split; auto. destruct asks; auto. discriminate (Hl eq_refl).
        * split; [intros; discriminate|]. exists new. repeat split; auto using among_left; intros; congruence.
    - apply recorded_seq.
      + apply IHa; auto. intros Hq. apply (Hst Hq).
      + intros v w1 j l1 Hj. apply recorded_keep, IHb; [intros Hq; apply (Hst Hq)|]. intros Hq. rewrite <- (Hj Hq). auto.
    - unfold ret_w. cbn. unfold noting_expr. cbn. destruct (w_value m rho v w) as [[x|] w1]; cbn;
        (split; [try discriminate; intros _ ? ? [= <- <-]; reflexivity|]); (eexists; repeat split; [apply am_take, am_nil|apply kept_one|intros _; exists []; auto]).
    - unfold ret_w. cbn. unfold noting_expr. cbn. destruct (w_value m rho v w) as [[x|] w1]; cbn;
        (split; [try discriminate; intros _ ? ? [= <- <-]; reflexivity|]); (eexists; repeat split; [apply am_take, am_nil|apply kept_one|intros _; exists []; auto]).
    - unfold err_w. cbn. unfold noting_expr. cbn. destruct (w_error m rho v w) as [[x|] w1]; cbn;
        (split; [intros; discriminate|]); (eexists; repeat split; [apply am_take, am_nil|apply kept_one|intros _; exists []; auto]).
    - unfold err_w. cbn. unfold noting_expr. cbn. destruct (w_error m rho v w) as [[x|] w1]; cbn;
        (split; [intros; discriminate|]); (eexists; repeat split; [apply am_take, am_nil|apply kept_one|intros _; exists []; auto]).
    - cbn. unfold noting. cbn. destruct (w_inline m rho s v w i) as [r w1] eqn:Er. cbn. split.
      + intros Hq j x Hr. cbn in Hr. subst r. apply (proj1 (Hmode Hq) rho s v w i j x). rewrite Er. reflexivity.
      + eexists; repeat split; [apply am_take, am_nil|apply kept_one|intros _; exists []; auto].
    - cbn. unfold noting. cbn. destruct (w_call m rho f ps w i) as [r w1] eqn:Er. cbn. split.
      + intros Hq j x Hr. cbn in Hr. subst r. apply (proj2 (Hmode Hq) rho f ps w i j x). rewrite Er. reflexivity.
      + eexists; repeat split; [apply am_take, am_nil|apply kept_one|intros _; exists []; auto].
  Qed.

  Lemma act_block_noted b : (alts = false -> straight_block b) -> forall rho w i l, (asks = false -> last i = false) ->
    recorded (block_pieces b) i (act_block m b rho w i) l (act_block (noted m) b rho (w, l) i).
  Proof.
    intros Hst. induction b as [e|e b IH|x e b IH]; intros rho w i l Hl; cbn [act_block block_pieces].
    - apply act_noted; auto.
    - apply recorded_seq; [apply act_noted; auto; intros Hq; apply (Hst Hq)|].
      intros v w1 j l1 Hj. apply IH; [intros Hq; apply (Hst Hq)|]. intros Hq. rewrite <- (Hj Hq). auto.
    - apply recorded_seq; [apply act_noted; auto; intros Hq; apply (Hst Hq)|].
      intros v w1 j l1 Hj. apply IH; [intros Hq; apply (Hst Hq)|]. intros Hq. rewrite <- (Hj Hq). auto.
  Qed.
End Noted.

(** * The text *)

Lemma among_map_in A B (f : A -> list B) (x : A) l : In x l -> among (f x) (flat_map f l).
Proof.
  induction l as [|a l IH]; [intros []|]. intros [->|H]; cbn; [apply among_left, among_refl|apply among_right; auto].
Qed.

Section Text.
  Variable rc : rustc.
  Hypothesis Hrc : lawful rc.
  Variable leaf : list tok -> Prop.

  Lemma expr_text :
    (forall ts e, g_expr rc leaf ts e -> among (flat_map spelling (pieces e)) (flat_map tokens ts)) /\
    (forall ts e, g_alt rc leaf ts e -> among (flat_map spelling (pieces e)) (flat_map tokens ts)) /\
    (forall ts e, g_skip rc leaf ts e -> among (flat_map spelling (pieces e)) (flat_map tokens ts)) /\
    (forall ts e, g_term rc leaf ts e -> among (flat_map spelling (pieces e)) (flat_map tokens ts)).
  Proof.
    apply (@g_mind rc leaf
      (fun ts e _ => among (flat_map spelling (pieces e)) (flat_map tokens ts))
      (fun ts e _ => among (flat_map spelling (pieces e)) (flat_map tokens ts))
      (fun ts e _ => among (flat_map spelling (pieces e)) (flat_map tokens ts))
      (fun ts e _ => among (flat_map spelling (pieces e)) (flat_map tokens ts))); auto.
    - intros l a r b _ Ha _ Hb. cbn [pieces]. rewrite !flat_map_app. cbn. apply among_app; auto. apply am_skip. auto.
    - intros l a r b _ Ha _ Hb. cbn [pieces]. rewrite !flat_map_app. cbn. apply among_app; auto. repeat apply am_skip. auto.
    - intros l a r b _ Ha _ Hb. cbn [pieces]. rewrite !flat_map_app. cbn. apply among_app; auto. repeat apply am_skip. auto.
    - intros r t u e _ Ht. rewrite (law_typed Hrc _ Ht). cbn. rewrite app_nil_r. repeat apply am_skip.
      rewrite flat_map_app. apply among_right. cbn. apply am_skip. rewrite flat_map_app. apply among_right. cbn. apply am_skip, among_refl.
    - intros e _ _. cbn. rewrite app_nil_r. apply am_skip, among_refl.
    - intros r t u e _ Ht. rewrite (law_typed Hrc _ Ht). cbn. rewrite app_nil_r. repeat apply am_skip.
      rewrite flat_map_app. apply among_right. cbn. apply am_skip. rewrite flat_map_app. apply among_right. cbn. apply am_skip, among_refl.
    - intros e _ _. cbn. rewrite app_nil_r. apply am_skip, among_refl.
    - intros l a _ H. cbn. rewrite app_nil_r. exact H.
    - intros s e _ _ _ _. cbn. rewrite app_nil_r. apply am_take, am_skip, among_refl.
    - intros f l ps _ _ _. cbn. rewrite app_nil_r. apply am_take, among_nil.
  Qed.

  Lemma block_text trailing ts b : g_block rc leaf trailing ts b -> among (flat_map spelling (block_pieces b)) (flat_map tokens ts).
  Proof.
    destruct expr_text as [Hx _].
    induction 1 as [l e He|l e Ht He|l e r k He Hk IH|v p l e r k Hv He Hk IH|v x ty l e r k Hv He Hk IH]; cbn [block_pieces].
    - apply Hx, He.
    - rewrite flat_map_app. apply among_left, Hx, He.
    - rewrite !flat_map_app. apply among_app; [apply Hx, He|]. cbn. apply am_skip, IH.
    - rewrite (law_let_pat Hrc _ Hv). cbn. rewrite !flat_map_app. apply am_skip, among_right. cbn. apply am_skip.
      rewrite flat_map_app. apply among_app; [apply Hx, He|]. cbn. apply am_skip, IH.
    - rewrite (law_let_typed Hrc _ Hv). cbn. rewrite !flat_map_app. do 3 apply am_skip. apply among_right. cbn. apply am_skip.
      rewrite flat_map_app. apply among_app; [apply Hx, He|]. cbn. apply am_skip, IH.
  Qed.
End Text.

(** * Over a stream *)

Section Keeping.
  Context {W I V E : Type}.
  Variable m : meaning_w W I V E.
  Hypothesis Hm : terms_w m keeping.

  Lemma ret_w_keeping (f : W -> option V * W) : @keeping W I V E (ret_w f).
  Proof.
    apply k_user.
    - intros w b l c. unfold ret_w. destruct (f w) as [[v|] w1]; reflexivity.
    - intros w [l b]. unfold ret_w. destruct (f w) as [[v|] w1]; cbn; [|exact Logic.I]. split; [reflexivity|]. exists []. reflexivity.
  Qed.
  Lemma err_w_keeping (f : W -> option E * W) : @keeping W I V E (err_w f).
  Proof.
    apply k_user.
    - intros w b l c. unfold err_w. destruct (f w) as [[v|] w1]; reflexivity.
    - intros w [l b]. unfold err_w. destruct (f w) as [[v|] w1]; cbn; [|exact Logic.I]. exists []. reflexivity.
  Qed.
  Lemma seq_keeping (p : sparser W I V E) (k : V -> sparser W I V E) : keeping p -> (forall v, keeping (k v)) -> keeping (fun w i => seq_w (p w i) k).
  Proof.
    intros Hp Hk. apply k_ext with (fun w i => let (r, w) := p w i in bind_w (fun e w => (Some e, w)) r k w); [apply k_bind; auto|].
    intros w i. destruct (p w i) as [r w1]. apply bind_w_seq.
  Qed.
  Lemma act_keeping e : forall rho, keeping (act m e rho).
  Proof.
    induction e as [a IHa b IHb|a IHa b IHb|a IHa b IHb|v|t u v|v|t u v|s v|f ps]; intros rho.
    - apply (@seq_keeping (act m a rho) (fun _ => act m b rho)); auto.
    - apply (@k_or _ _ _ _ (act m a rho) (act m b rho)); auto.
    - apply (@seq_keeping (act m a rho) (fun v w j => keep_w v (act m b rho w j))); auto.
      intros v. apply k_ext with (fun w j => let (r, w) := act m b rho w j in map_w (fun _ w => (Some v, w)) r w); [apply k_map; auto|].
      intros w i. destruct (act m b rho w i) as [[] w1]; reflexivity.
    - apply ret_w_keeping.
    - apply ret_w_keeping.
    - apply err_w_keeping.
    - apply err_w_keeping.
    - apply (proj1 Hm rho s v).
    - apply (proj2 Hm rho f ps).
  Qed.
  Lemma act_block_keeping b : forall rho, keeping (act_block m b rho).
  Proof.
    induction b as [e|e b IH|x e b IH]; intros rho.
    - apply (act_keeping e).
    - apply (@seq_keeping (act m e rho) (fun _ => act_block m b rho)); auto. apply act_keeping.
    - apply (@seq_keeping (act m e rho) (fun v => act_block m b (bound x v rho))); auto. apply act_keeping.
  Qed.
End Keeping.

(** * Ending *)

Section Ends.
  Context {W I V E : Type}.
  Variable m : meaning_w W I V E.
  Hypothesis Hm : terms_w m (fun p => forall w i, fst (p w i) <> NoFuel).

  Lemma act_ends e : forall rho w i, fst (act m e rho w i) <> NoFuel.
  Proof.
    induction e as [a IHa b IHb|a IHa b IHb|a IHa b IHb|v|t u v|v|t u v|s v|f ps]; intros rho w i; cbn [act].
    - specialize (IHa rho w i). destruct (act m a rho w i) as [[j v|b0 y|n| |] w1]; cbn in *; auto.
    - specialize (IHa rho w i). unfold or_w. destruct (act m a rho w i) as [[j v|b0 y|n| |] w1]; cbn in *; auto. destruct (last i); cbn; auto.
    - specialize (IHa rho w i). destruct (act m a rho w i) as [[j v|b0 y|n| |] w1]; cbn in *; auto.
      specialize (IHb rho w1 j). destruct (act m b rho w1 j) as [[k u|b1 y|n| |] w2]; cbn in *; auto; discriminate.
    - unfold ret_w. destruct (w_value m rho v w) as [[x|] w1]; discriminate.
    - unfold ret_w. destruct (w_value m rho v w) as [[x|] w1]; discriminate.
    - unfold err_w. destruct (w_error m rho v w) as [[x|] w1]; discriminate.
    - unfold err_w. destruct (w_error m rho v w) as [[x|] w1]; discriminate.
    - apply (proj1 Hm).
    - apply (proj2 Hm).
  Qed.
  Lemma act_block_ends b : forall rho w i, fst (act_block m b rho w i) <> NoFuel.
  Proof.
    induction b as [e|e b IH|x e b IH]; intros rho w i; cbn [act_block]; [apply act_ends|..];
      pose proof (act_ends e rho w i) as Ha; destruct (act m e rho w i) as [[j v|b0 y|n| |] w1]; cbn in *; auto.
  Qed.
End Ends.

(** * Answers that do not depend on the world *)

Lemma eval_steady W I V E (m : meaning_w W I V E) (m0 : @meaning I V E) : steady m m0 ->
  forall c rho ins w, fst (eval_w m c rho ins w) = eval m0 c rho ins.
Proof.
  intros (Hv & He & Hi & Hf).
  induction c as [i|i e|i t u e|i e|i t u e|s i e|f i ps|c IHc b k IHk|i a IHa b IHb|a IHa b IHb]; intros rho ins w; cbn [eval_w eval];
    unfold with_input_w, with_input; try (destruct (nth_error ins i) as [x|]; [|reflexivity]); auto.
  - unfold ret_w. specialize (Hv rho e w). destruct (w_value m rho e w) as [o w1]. cbn in Hv. rewrite Hv. reflexivity.
  - unfold ret_w. specialize (Hv rho e w). destruct (w_value m rho e w) as [o w1]. cbn in Hv. rewrite Hv. reflexivity.
  - unfold err_w. specialize (He rho e w). destruct (w_error m rho e w) as [o w1]. cbn in He. rewrite He. reflexivity.
  - unfold err_w. specialize (He rho e w). destruct (w_error m rho e w) as [o w1]. cbn in He. rewrite He. reflexivity.
  - specialize (IHc rho ins w). destruct (eval_w m c rho ins w) as [r w1]. rewrite bind_w_seq. cbn in IHc. rewrite <- IHc.
    destruct r as [j v| | | |]; cbn; auto. rewrite IHk. destruct (eval m0 k (bound b v rho) (j :: ins)); reflexivity.
  - specialize (IHa rho (x :: ins) w). unfold or_w, or_. destruct (eval_w m a rho (x :: ins) w) as [r w1]. cbn in IHa. rewrite <- IHa.
    destruct r; cbn; auto. destruct (last x); auto.
  - specialize (IHa rho ins w). destruct (eval_w m a rho ins w) as [r w1]. rewrite bind_w_seq. cbn in IHa. rewrite <- IHa.
    destruct r as [j v| | | |]; cbn; auto. specialize (IHb rho (j :: ins) w1). destruct (eval_w m b rho (j :: ins) w1) as [r2 w2]. cbn in IHb.
    rewrite <- IHb. destruct r2; reflexivity.
Qed.
