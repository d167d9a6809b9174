(** The parsers and choices with acting callbacks, against SpecEffects.v. *)
From Coq Require Import List Bool Arith Lia.
From Verif Require Import Base Parsers Combinators SpecIter Effects SpecEffects.
Import ListNotations.

Set Implicit Arguments.

Ltac break := repeat match goal with
  | |- context [match ?x with _ => _ end] => destruct x eqn:?
  end.

(** * Search *)

Lemma search_nil : forall W A (f : callback W A bool) go w, search f go w [] Through w.
Proof. intros. constructor. constructor. Qed.

Lemma all_called_cons : forall W A B (f : callback W A B) b w c cs w1 w2, f c w = (Some b, w1) -> all_called f b w1 cs w2 ->
  all_called f b w (c :: cs) w2.
Proof. intros. unfold all_called. simpl. econstructor; eauto. Qed.

Lemma search_cons : forall W A (f : callback W A bool) go w c b w1 v w2, f c w = (Some go, w1) -> search f go w1 b v w2 ->
  search f go w (c :: b) (match v with Through => Through | UpTo cs d r => UpTo (c :: cs) d r | Dead => Dead end) w2.
Proof.
  intros W A f go w c b w1 v w2 H Hs. destruct Hs as [w' Hc|cs d r w3 w' -> Hc Hd|cs d r w3 w' -> Hc Hd].
  - constructor. eapply all_called_cons; eauto.
  - eapply search_up_to; [reflexivity|eapply all_called_cons; eauto|assumption].
  - eapply search_dead with (cs := c :: cs); [reflexivity|eapply all_called_cons; eauto|assumption].
Qed.

Lemma called_det : forall W A B (f : callback W A B) cs w bs w1, called f w cs bs w1 -> forall bs' w2, called f w cs bs' w2 -> bs = bs' /\ w1 = w2.
Proof.
  induction 1 as [w|w c cs b bs w1 w2 H Hc IH]; intros bs' w3 H'; inversion H' as [|? ? ? ? ? ? ? H2 Hc2]; subst; auto.
  rewrite H in H2. inversion H2; subst. destruct (IH _ _ Hc2); subst. auto.
Qed.

Lemma search_inv_cons : forall W A (f : callback W A bool) go w c b v w', search f go w (c :: b) v w' ->
  (exists w1 v1, f c w = (Some go, w1) /\ search f go w1 b v1 w' /\
     v = match v1 with Through => Through | UpTo cs d r => UpTo (c :: cs) d r | Dead => Dead end) \/
  (f c w = (Some (negb go), w') /\ v = UpTo [] c b) \/ (f c w = (None, w') /\ v = Dead).
Proof.
  intros W A f go w c b v w' H. destruct H as [w' Hc|cs d r w3 w' He Hc Hd|cs d r w3 w' He Hc Hd].
  - inversion Hc; subst. left. exists w1, Through. repeat split; auto. constructor. assumption.
  - destruct cs as [|x cs]; simpl in He; inversion He; subst.
    + inversion Hc; subst. auto.
    + inversion Hc; subst. left. exists w1, (UpTo cs d r). repeat split; auto. eapply search_up_to; eauto.
  - destruct cs as [|x cs]; simpl in He; inversion He; subst.
    + inversion Hc; subst. auto.
    + inversion Hc; subst. left. exists w1, Dead. repeat split; auto. eapply search_dead; eauto.
Qed.

Lemma search_det : forall W A (f : callback W A bool) go b w v w', search f go w b v w' -> forall v2 w2, search f go w b v2 w2 -> v = v2 /\ w' = w2.
Proof.
  induction b as [|c b IH]; intros w v w' H v2 w2 H2.
  - assert (Hn : forall v w', search f go w [] v w' -> v = Through /\ w' = w).
    { intros v0 w0 H0. destruct H0 as [w0 Hc|cs d r w3 w0 He|cs d r w3 w0 He]; try (destruct cs; discriminate). inversion Hc; auto. }
    apply Hn in H. apply Hn in H2. destruct H, H2; subst; auto.
  - apply search_inv_cons in H. apply search_inv_cons in H2.
    destruct H as [(w1 & v1 & Hf & Hs & ->)|[[Hf ->]|[Hf ->]]]; destruct H2 as [(w3 & v3 & Hf' & Hs' & ->)|[[Hf' ->]|[Hf' ->]]];
      rewrite Hf in Hf'; inversion Hf'; subst; auto; try (destruct go; discriminate).
    destruct (IH _ _ _ Hs _ _ Hs'); subst; auto.
Qed.

(** [position_w] searches for an item on which the answer is [true]. *)
Lemma position_w_search : forall W A (f : callback W A bool) b w r w', position_w f b w = (r, w') ->
  exists v, search f false w b v w' /\
    r = match v with Through => Some None | UpTo cs _ _ => Some (Some (length cs)) | Dead => None end.
Proof.
  induction b as [|c b IH]; intros w r w' H; simpl in H.
  - inversion H; subst. exists Through. split; auto. apply search_nil.
  - destruct (f c w) as [[[]|] w1] eqn:Hf.
    + inversion H; subst. exists (UpTo [] c b). split; auto. eapply search_up_to with (cs := []); [reflexivity|constructor|assumption].
    + destruct (position_w f b w1) as [[n|] w2] eqn:Hp; inversion H; subst; destruct (IH _ _ _ Hp) as (v & Hs & Hv);
        (eexists; split; [eapply search_cons; eassumption|]); destruct v; simpl in *; inversion Hv; subst; reflexivity.
    + inversion H; subst. exists Dead. split; auto. eapply search_dead with (cs := []); [reflexivity|constructor|assumption].
Qed.

Lemma called_is_false : forall W A (f : callback W A bool) cs w w', all_called (is_false f) false w cs w' <-> all_called f true w cs w'.
Proof.
  intros W A f. unfold all_called. induction cs as [|c cs IH]; intros w w'; simpl; split; intros H; inversion H; subst; try constructor.
  - match goal with H0 : is_false f c w = _ |- _ => unfold is_false in H0; destruct (f c w) as [[[]|] w2] eqn:Hf; inversion H0; subst end.
    econstructor; eauto. apply IH. assumption.
  - match goal with H0 : f c w = _ |- _ => econstructor; [unfold is_false; rewrite H0; reflexivity|] end. apply IH. assumption.
Qed.

Lemma search_is_false : forall W A (f : callback W A bool) w b v w', search (is_false f) false w b v w' <-> search f true w b v w'.
Proof.
  intros W A f w b v w'. split; intros H; destruct H as [w' Hc|cs d r w3 w' He Hc Hd|cs d r w3 w' He Hc Hd].
  - constructor. apply called_is_false. assumption.
  - apply called_is_false in Hc. unfold is_false in Hd. destruct (f d w3) as [[[]|] w4] eqn:Hf; inversion Hd; subst. eapply search_up_to; eauto.
  - apply called_is_false in Hc. unfold is_false in Hd. destruct (f d w3) as [[[]|] w4] eqn:Hf; inversion Hd; subst. eapply search_dead; eauto.
  - constructor. apply called_is_false. assumption.
  - eapply search_up_to; eauto; [apply called_is_false; eassumption|]. unfold is_false. rewrite Hd. reflexivity.
  - eapply search_dead; eauto; [apply called_is_false; eassumption|]. unfold is_false. rewrite Hd. reflexivity.
Qed.

Lemma search_split : forall W A (f : callback W A bool) go w b cs c r w', search f go w b (UpTo cs c r) w' ->
  b = cs ++ c :: r /\ firstn (length cs) b = cs /\ skipn (length cs) b = c :: r.
Proof.
  intros W A f go w b cs c r w' H. inversion H; subst. repeat split.
  - rewrite firstn_app, Nat.sub_diag, firstn_all. simpl. apply app_nil_r.
  - rewrite skipn_app, Nat.sub_diag, skipn_all. reflexivity.
Qed.

Section Primitives.
  Context {W I : Type}.
  Variable verbose : bool.

  Definition took (i : input I) (cs rest : list I) : pres I (list I) (error I) := Data (mkInput (last i) rest) cs.

  Lemma take_while_w_char : forall (f : callback W I bool) w i res w', take_while_w f w i = (res, w') <->
    exists v, search f true w (buf i) v w' /\
      res = match v with
            | Through => if last i then took i (buf i) [] else Incomplete 1
            | UpTo cs c rest => took i cs (c :: rest)
            | Dead => Panic
            end.
  Proof.
    assert (Hs : forall (f : callback W I bool) w i res w', take_while_w f w i = (res, w') ->
      exists v, search f true w (buf i) v w' /\
      res = match v with
            | Through => if last i then took i (buf i) [] else Incomplete 1
            | UpTo cs c rest => took i cs (c :: rest)
            | Dead => Panic
            end).
    { intros f w i res w' H. unfold take_while_w in H. destruct (position_w (is_false f) (buf i) w) as [r w1] eqn:Hp.
      destruct (position_w_search _ _ _ Hp) as (v & Hv & ->). exists v. apply search_is_false in Hv.
      destruct v as [|cs c rest|]; simpl in H; inversion H; subst; split; auto.
      destruct (search_split Hv) as (_ & -> & ->). reflexivity. }
    intros f w i res w'. split; [apply Hs|]. intros (v & Hv & ->). destruct (take_while_w f w i) as [res2 w2] eqn:H2.
    destruct (Hs _ _ _ _ _ H2) as (v2 & Hv2 & ->). destruct (search_det Hv Hv2); subst. reflexivity.
  Qed.

  Lemma take_while1_w_char : forall (f : callback W I bool) w i res w', take_while1_w verbose f w i = (res, w') <->
    exists v, search f true w (buf i) v w' /\
      res = match v with
            | Through => match buf i with [] => Incomplete 1 | _ => if last i then took i (buf i) [] else Incomplete 1 end
            | UpTo [] c rest => Error (buf i) (if verbose then Unexpected else EPlain)
            | UpTo cs c rest => took i cs (c :: rest)
            | Dead => Panic
            end.
  Proof.
    assert (Hs : forall (f : callback W I bool) w i res w', take_while1_w verbose f w i = (res, w') ->
      exists v, search f true w (buf i) v w' /\
      res = match v with
            | Through => match buf i with [] => Incomplete 1 | _ => if last i then took i (buf i) [] else Incomplete 1 end
            | UpTo [] c rest => Error (buf i) (if verbose then Unexpected else EPlain)
            | UpTo cs c rest => took i cs (c :: rest)
            | Dead => Panic
            end).
    { intros f w i res w' H. unfold take_while1_w in H. destruct (position_w (is_false f) (buf i) w) as [r w1] eqn:Hp.
      destruct (position_w_search _ _ _ Hp) as (v & Hv & ->). exists v. apply search_is_false in Hv.
      destruct v as [|cs c rest|]; simpl in H.
      - inversion H; subst. split; auto. destruct (buf i); reflexivity.
      - pose proof (search_split Hv) as (_ & H1 & H2). destruct cs as [|x cs]; simpl length in H, H1, H2; cbv iota in H;
          [|rewrite H1, H2 in H]; inversion H; subst; auto.
      - inversion H; subst; auto. }
    intros f w i res w'. split; [apply Hs|]. intros (v & Hv & ->). destruct (take_while1_w verbose f w i) as [res2 w2] eqn:H2.
    destruct (Hs _ _ _ _ _ H2) as (v2 & Hv2 & ->). destruct (search_det Hv Hv2); subst. reflexivity.
  Qed.

  Lemma take_till_w_char : forall icl (f : callback W I bool) w i res w', take_till_w icl f w i = (res, w') <->
    exists v, search (cloned_then icl f) false w (buf i) v w' /\
      res = match v with
            | Through => Incomplete 1
            | UpTo cs c rest => took i cs (c :: rest)
            | Dead => Panic
            end.
  Proof.
    assert (Hs : forall icl (f : callback W I bool) w i res w', take_till_w icl f w i = (res, w') ->
      exists v, search (cloned_then icl f) false w (buf i) v w' /\
      res = match v with
            | Through => Incomplete 1
            | UpTo cs c rest => took i cs (c :: rest)
            | Dead => Panic
            end).
    { intros icl f w i res w' H. unfold take_till_w in H. destruct (position_w (cloned_then icl f) (buf i) w) as [r w1] eqn:Hp.
      destruct (position_w_search _ _ _ Hp) as (v & Hv & ->). exists v.
      destruct v as [|cs c rest|]; simpl in H; inversion H; subst; split; auto.
      destruct (search_split Hv) as (_ & -> & ->). reflexivity. }
    intros icl f w i res w'. split; [apply Hs|]. intros (v & Hv & ->). destruct (take_till_w icl f w i) as [res2 w2] eqn:H2.
    destruct (Hs _ _ _ _ _ _ H2) as (v2 & Hv2 & ->). destruct (search_det Hv Hv2); subst. reflexivity.
  Qed.

  (** ** string *)
  Lemma string_mismatch_search : forall (ne : callback W (I * I) bool) s d j w r w', string_mismatch_w ne j s d w = (r, w') ->
    exists v, search ne false w (combine s d) v w' /\
      r = match v with Through => Some None | UpTo cs _ _ => Some (Some (j + length cs)) | Dead => None end.
  Proof.
    induction s as [|x s IH]; intros d j w r w' H; [|destruct d as [|y d]]; simpl in H.
    1,2: inversion H; subst; exists Through; split; auto; apply search_nil.
    simpl combine. destruct (ne (x, y) w) as [[[]|] w1] eqn:Hf.
    - inversion H; subst. exists (UpTo [] (x, y) (combine s d)). split; [|f_equal; f_equal; simpl; lia].
      eapply search_up_to with (cs := []); [reflexivity|constructor|assumption].
    - destruct (IH _ _ _ _ _ H) as (v & Hs & ->). eexists; split; [eapply search_cons; eassumption|]. destruct v; auto.
      simpl. f_equal; f_equal; lia.
    - inversion H; subst. exists Dead. split; auto. eapply search_dead with (cs := []); [reflexivity|constructor|assumption].
  Qed.

  Lemma combine_firstn_r : forall (s b : list I), combine s (firstn (length s) b) = combine s b.
  Proof. induction s as [|x s IH]; intros [|y b]; simpl; auto. f_equal. apply IH. Qed.

  Lemma string_w_char : forall (ne : callback W (I * I) bool) s w i res w', string_w verbose ne s w i = (res, w') <->
    (length (buf i) < length s /\ res = Incomplete (length s - length (buf i)) /\ w' = w) \/
    (length s <= length (buf i) /\ exists v, search ne false w (combine s (buf i)) v w' /\
      res = match v with
            | Through => took i (firstn (length s) (buf i)) (skipn (length s) (buf i))
            | UpTo cs _ _ => err_string verbose i (length cs) s
            | Dead => Panic
            end).
  Proof.
    intros ne s w i res w'. unfold string_w. destruct (Nat.ltb_spec (length (buf i)) (length s)) as [Hl|Hl].
    - split.
      + intros H; inversion H; subst. left. auto.
      + intros [(_ & -> & ->)|(H & _)]; [reflexivity|lia].
    - destruct (string_mismatch_w ne 0 s (firstn (length s) (buf i)) w) as [r w1] eqn:Hm.
      destruct (string_mismatch_search _ _ _ _ _ Hm) as (v & Hv & ->). rewrite combine_firstn_r in Hv. split.
      + intros H. right. split; auto. exists v. destruct v; simpl in H; inversion H; subst; auto.
      + intros [(H & _)|(_ & v2 & Hv2 & ->)]; [lia|]. destruct (search_det Hv Hv2); subst. destruct v2; reflexivity.
  Qed.

  (** ** scanners *)
  Definition scan_step {S} (f : callback W (S * I) (option S)) (c : I) (sw : option S * W) : option bool * (option S * W) :=
    match fst sw with
    | None => (None, sw)
    | Some s0 =>
        match f (s0, c) (snd sw) with
        | (None, w) => (None, (None, w))
        | (Some st, w) => (Some (match st with None => true | Some _ => false end), (st, w))
        end
    end.

  Lemma scan_position : forall S (f : callback W (S * I) (option S)) b s w, exists v s' w',
    scan_search f s w b v s' w' /\
    position_w (scan_step f) b (Some s, w) =
      match v with Through => (Some None, (Some s', w')) | UpTo cs _ _ => (Some (Some (length cs)), (None, w')) | Dead => (None, (None, w')) end.
  Proof.
    intros S f. induction b as [|c b IH]; intros s w.
    - exists Through, s, w. split; auto. constructor. constructor.
    - simpl. unfold scan_step at 1. simpl. destruct (f (s, c) w) as [[[s1|]|] w1] eqn:Hf.
      + destruct (IH s1 w1) as (v & s' & w' & Hs & ->). destruct Hs as [s' w' Hc|cs d r s' w3 w' -> Hc Hd|cs d r s' w3 w' -> Hc Hd].
        * exists Through, s', w'. split; auto. constructor. econstructor; eauto.
        * exists (UpTo (c :: cs) d r), s', w'. split; auto. eapply scan_up_to; [reflexivity|econstructor; eauto|eassumption].
        * exists Dead, s', w'. split; auto. eapply scan_dead with (cs := c :: cs); [reflexivity|econstructor; eauto|eassumption].
      + exists (UpTo [] c b), s, w1. split; auto. eapply scan_up_to with (cs := []); [reflexivity|constructor|eassumption].
      + exists Dead, s, w1. split; auto. eapply scan_dead with (cs := []); [reflexivity|constructor|eassumption].
  Qed.

  Lemma scanned_det : forall S (f : callback W (S * I) (option S)) b s w s1 w1, scanned f s w b s1 w1 -> forall s2 w2,
    scanned f s w b s2 w2 -> s1 = s2 /\ w1 = w2.
  Proof.
    induction 1 as [s w|s w c cs s1 w1 s2 w2 H Hc IH]; intros s3 w3 H'; inversion H' as [|? ? ? ? ? ? ? ? H2 Hc2]; subst; auto.
    rewrite H in H2. inversion H2; subst. auto.
  Qed.

  Lemma scan_search_inv : forall S (f : callback W (S * I) (option S)) c b s w v s' w', scan_search f s w (c :: b) v s' w' ->
    (exists s1 w1 v1, f (s, c) w = (Some (Some s1), w1) /\ scan_search f s1 w1 b v1 s' w' /\
       v = match v1 with Through => Through | UpTo cs d r => UpTo (c :: cs) d r | Dead => Dead end) \/
    (f (s, c) w = (Some None, w') /\ v = UpTo [] c b /\ s' = s) \/ (f (s, c) w = (None, w') /\ v = Dead /\ s' = s).
  Proof.
    intros S f c b s w v s' w' H. destruct H as [s' w' Hc|cs d r s' w3 w' He Hc Hd|cs d r s' w3 w' He Hc Hd].
    - inversion Hc; subst. left. exists s1, w1, Through. repeat split; auto. constructor. assumption.
    - destruct cs as [|x cs]; simpl in He; inversion He; subst; inversion Hc; subst; auto.
      left. exists s1, w1, (UpTo cs d r). repeat split; auto. eapply scan_up_to; eauto.
    - destruct cs as [|x cs]; simpl in He; inversion He; subst; inversion Hc; subst; auto.
      left. exists s1, w1, Dead. repeat split; auto. eapply scan_dead; eauto.
  Qed.

  Lemma scan_search_det : forall S (f : callback W (S * I) (option S)) b s w v s' w', scan_search f s w b v s' w' -> forall v2 s2 w2,
    scan_search f s w b v2 s2 w2 -> v = v2 /\ s' = s2 /\ w' = w2.
  Proof.
    intros S f. induction b as [|c b IH]; intros s w v s' w' H v2 s2 w2 H2.
    - assert (Hn : forall v s' w', scan_search f s w [] v s' w' -> v = Through /\ s' = s /\ w' = w).
      { intros v0 s0 w0 H0. destruct H0 as [s0 w0 Hc|cs d r s0 w3 w0 He|cs d r s0 w3 w0 He]; try (destruct cs; discriminate). inversion Hc; auto. }
      apply Hn in H. apply Hn in H2. destruct H as (? & ? & ?), H2 as (? & ? & ?); subst; auto.
    - apply scan_search_inv in H. apply scan_search_inv in H2.
      destruct H as [(s1 & w1 & v1 & Hf & Hs & ->)|[(Hf & -> & ->)|(Hf & -> & ->)]];
        destruct H2 as [(s3 & w3 & v3 & Hf' & Hs' & ->)|[(Hf' & -> & ->)|(Hf' & -> & ->)]]; rewrite Hf in Hf'; inversion Hf'; subst; auto.
      destruct (IH _ _ _ _ _ Hs _ _ _ Hs') as (? & ? & ?); subst; auto.
  Qed.

  Lemma scan_split : forall S (f : callback W (S * I) (option S)) s w b cs c r s' w', scan_search f s w b (UpTo cs c r) s' w' ->
    firstn (length cs) b = cs /\ skipn (length cs) b = c :: r.
  Proof.
    intros S f s w b cs c r s' w' H. inversion H; subst. split.
    - rewrite firstn_app, Nat.sub_diag, firstn_all. simpl. apply app_nil_r.
    - rewrite skipn_app, Nat.sub_diag, skipn_all. reflexivity.
  Qed.

  Lemma scan_w_char : forall S (s : S) (f : callback W (S * I) (option S)) w i res w', scan_w s f w i = (res, w') <->
    exists v s', scan_search f s w (buf i) v s' w' /\
      res = match v with Through => Incomplete 1 | UpTo cs c rest => took i cs (c :: rest) | Dead => Panic end.
  Proof.
    intros S s f w i res w'. unfold scan_w. cbv zeta.
    destruct (scan_position f (buf i) s w) as (v & s' & w2 & Hs & Hp). unfold scan_step in Hp. rewrite Hp. split.
    - intros H. exists v, s'. destruct v as [|cs c r|]; simpl in H; inversion H; subst; split; auto.
      destruct (scan_split Hs) as (-> & ->). reflexivity.
    - intros (v2 & s2 & Hs2 & ->). destruct (scan_search_det Hs Hs2) as (? & ? & ?); subst. destruct v2 as [|cs c r|]; auto.
      destruct (scan_split Hs) as (-> & ->). reflexivity.
  Qed.

  Definition run_step {S} (f : callback W (S * I) (option S)) (c : I) (sw : S * W) : option bool * (S * W) :=
    match f (fst sw, c) (snd sw) with
    | (None, w) => (None, (fst sw, w))
    | (Some None, w) => (Some true, (fst sw, w))
    | (Some (Some v), w) => (Some false, (v, w))
    end.

  Lemma run_position : forall S (f : callback W (S * I) (option S)) b s w, exists v s' w',
    scan_search f s w b v s' w' /\
    position_w (run_step f) b (s, w) =
      (match v with Through => Some None | UpTo cs _ _ => Some (Some (length cs)) | Dead => None end, (s', w')).
  Proof.
    intros S f. induction b as [|c b IH]; intros s w.
    - exists Through, s, w. split; auto. constructor. constructor.
    - simpl. unfold run_step at 1. simpl. destruct (f (s, c) w) as [[[s1|]|] w1] eqn:Hf.
      + destruct (IH s1 w1) as (v & s' & w' & Hs & ->). destruct Hs as [s' w' Hc|cs d r s' w3 w' -> Hc Hd|cs d r s' w3 w' -> Hc Hd].
        * exists Through, s', w'. split; auto. constructor. econstructor; eauto.
        * exists (UpTo (c :: cs) d r), s', w'. split; auto. eapply scan_up_to; [reflexivity|econstructor; eauto|eassumption].
        * exists Dead, s', w'. split; auto. eapply scan_dead with (cs := c :: cs); [reflexivity|econstructor; eauto|eassumption].
      + exists (UpTo [] c b), s, w1. split; auto. eapply scan_up_to with (cs := []); [reflexivity|constructor|eassumption].
      + exists Dead, s, w1. split; auto. eapply scan_dead with (cs := []); [reflexivity|constructor|eassumption].
  Qed.

  Lemma run_scanner_w_char : forall S (s : S) (f : callback W (S * I) (option S)) w i res w', run_scanner_w s f w i = (res, w') <->
    exists v s', scan_search f s w (buf i) v s' w' /\
      res = match v with Through => Incomplete 1 | UpTo cs c rest => Data (mkInput (last i) (c :: rest)) (cs, s') | Dead => Panic end.
  Proof.
    intros S s f w i res w'. unfold run_scanner_w. cbv zeta.
    destruct (run_position f (buf i) s w) as (v & s' & w2 & Hs & Hp). unfold run_step in Hp. rewrite Hp. split.
    - intros H. exists v, s'. destruct v as [|cs c r|]; simpl in H; inversion H; subst; split; auto.
      destruct (scan_split Hs) as (-> & ->). reflexivity.
    - intros (v2 & s2 & Hs2 & ->). destruct (scan_search_det Hs Hs2) as (? & ? & ?); subst. destruct v2 as [|cs c r|]; auto.
      destruct (scan_split Hs) as (-> & ->). reflexivity.
  Qed.
End Primitives.

(** * Callbacks whose answers do not depend on the world *)

Section Pure.
  Context {W I : Type}.
  Variable verbose : bool.
  Variable eqb : I -> I -> bool.

  Lemma answers_step : forall A B (f : callback W A B) g a w, answers f g -> exists w', f a w = (Some (g a), w').
  Proof. intros A B f g a w H. specialize (H a w). destruct (f a w) as [o w']. simpl in H. subst. eauto. Qed.

  Lemma position_w_pure : forall A (f : callback W A bool) g b w, answers f g -> fst (position_w f b w) = Some (position g b).
  Proof.
    intros A f g b w H. revert w. induction b as [|c b IH]; intros w; simpl; auto.
    destruct (answers_step c w H) as (w1 & ->). destruct (g c); auto. specialize (IH w1).
    destruct (position_w f b w1) as [[n|] w2]; simpl in *; inversion IH; subst. reflexivity.
  Qed.

  Lemma is_false_pure : forall (f : callback W I bool) g, answers f g -> answers (is_false f) (fun c => Bool.eqb (g c) false).
  Proof. intros f g H c w. unfold is_false. destruct (answers_step c w H) as (w1 & ->). reflexivity. Qed.

  Lemma satisfy_w_pure : forall f g, answers f g -> parses_as (W := W) (satisfy_w verbose f) (satisfy (I := I) verbose g).
  Proof.
    intros f g H w i. unfold satisfy_w, satisfy. destruct (first (buf i)) as [c|]; auto.
    destruct (answers_step c w H) as (w1 & ->). destruct (g c); reflexivity.
  Qed.
  Lemma satisfy_with_w_pure : forall T icl tcl (f : callback W I T) p g q, answers icl (fun c => c) -> answers tcl (fun t => t) ->
    answers f g -> answers p q -> parses_as (satisfy_with_w verbose icl tcl f p) (satisfy_with verbose g q).
  Proof.
    intros T icl tcl f p g q H1 H2 H3 H4 w i. unfold satisfy_with_w, satisfy_with. destruct (first (buf i)) as [c|]; auto.
    destruct (answers_step c w H1) as (w1 & ->). destruct (answers_step c w1 H3) as (w2 & ->).
    destruct (answers_step (g c) w2 H2) as (w3 & ->). destruct (answers_step (g c) w3 H4) as (w4 & ->). destruct (q (g c)); reflexivity.
  Qed.
  Lemma token_w_pure : forall eq t, answers eq (fun ab => eqb (fst ab) (snd ab)) -> parses_as (W := W) (token_w verbose eq t) (token verbose eqb t).
  Proof.
    intros eq t H w i. unfold token_w, token. destruct (first (buf i)) as [c|]; auto.
    destruct (answers_step (t, c) w H) as (w1 & ->). simpl. destruct (eqb t c); reflexivity.
  Qed.
  Lemma not_token_w_pure : forall ne t, answers ne (fun ab => negb (eqb (fst ab) (snd ab))) ->
    parses_as (W := W) (not_token_w verbose ne t) (not_token verbose eqb t).
  Proof.
    intros ne t H w i. unfold not_token_w, not_token. destruct (first (buf i)) as [c|]; auto.
    destruct (answers_step (t, c) w H) as (w1 & ->). simpl. destruct (eqb t c); reflexivity.
  Qed.
  Lemma take_while_w_pure : forall f g, answers f g -> parses_as (W := W) (take_while_w f) (take_while (I := I) g).
  Proof.
    intros f g H w i. unfold take_while_w, take_while. pose proof (position_w_pure (buf i) w (is_false_pure H)) as Hp.
    destruct (position_w (is_false f) (buf i) w) as [r w1]. simpl in Hp. subst.
    destruct (position (fun c => Bool.eqb (g c) false) (buf i)); reflexivity.
  Qed.
  Lemma take_while1_w_pure : forall f g, answers f g -> parses_as (W := W) (take_while1_w verbose f) (take_while1 (I := I) verbose g).
  Proof.
    intros f g H w i. unfold take_while1_w, take_while1. pose proof (position_w_pure (buf i) w (is_false_pure H)) as Hp.
    destruct (position_w (is_false f) (buf i) w) as [r w1]. simpl in Hp. subst.
    destruct (position (fun c => Bool.eqb (g c) false) (buf i)) as [[|n]|]; reflexivity.
  Qed.
  Lemma take_till_w_pure : forall icl f g, answers icl (fun c => c) -> answers f g -> parses_as (W := W) (take_till_w icl f) (take_till (I := I) g).
  Proof.
    intros icl f g Hi H w i. unfold take_till_w, take_till.
    assert (Hc : answers (cloned_then icl f) g).
    { intros c w0. unfold cloned_then. destruct (answers_step c w0 Hi) as (w1 & ->). apply H. }
    pose proof (position_w_pure (buf i) w Hc) as Hp. destruct (position_w (cloned_then icl f) (buf i) w) as [r w1]. simpl in Hp. subst.
    destruct (position g (buf i)); reflexivity.
  Qed.
  Lemma string_w_pure : forall ne s, answers ne (fun ab => negb (eqb (fst ab) (snd ab))) ->
    parses_as (W := W) (string_w verbose ne s) (string verbose eqb s).
  Proof.
    intros ne s H w i. unfold string_w, string. destruct (length (buf i) <? length s); auto.
    assert (Hm : forall s d j w, fst (string_mismatch_w ne j s d w) = Some (string_mismatch eqb j s d)).
    { clear w i. induction s0 as [|x s0 IH]; intros [|y d] j w; simpl; auto.
      destruct (answers_step (x, y) w H) as (w1 & ->). simpl. destruct (eqb x y); simpl; auto. }
    specialize (Hm s (firstn (length s) (buf i)) 0 w). destruct (string_mismatch_w ne 0 s (firstn (length s) (buf i)) w) as [r w1].
    simpl in Hm. subst. destruct (string_mismatch eqb 0 s (firstn (length s) (buf i))); reflexivity.
  Qed.
  Lemma scan_w_pure : forall S (s : S) f g, answers f (fun sc => g (fst sc) (snd sc)) -> parses_as (W := W) (scan_w s f) (scan (I := I) s g).
  Proof.
    intros S s f g H w i. unfold scan_w, scan.
    assert (Hm : forall b s w,
      match fst (position_w (scan_step f) b (Some s, w)), position_st (fun (st : option (option S)) (c : I) =>
        match st with
        | Some (Some s0) => let st' := g s0 c in (match st' with None => true | Some _ => false end, Some st')
        | _ => (true, None)
        end) (Some (Some s)) b with
      | None, _ => False
      | Some r, (r', st) => r = r' /\ st <> None
      end).
    { clear s w i. induction b as [|c b IH]; intros s w; simpl; [split; [auto|discriminate]|].
      unfold scan_step at 1. simpl. destruct (answers_step (s, c) w H) as (w1 & ->). simpl. destruct (g s c) as [s1|]; simpl.
      - specialize (IH s1 w1). destruct (position_w (scan_step f) b (Some s1, w1)) as [[n|] w2]; simpl in *; [|contradiction].
        match goal with |- context [position_st ?x ?y ?z] => destruct (position_st x y z) as [o st] end.
        destruct IH as [-> IH]. split; auto.
      - split; [auto|discriminate]. }
    specialize (Hm (buf i) s w). unfold scan_step in Hm.
    destruct (position_w _ (buf i) (Some s, w)) as [[r|] [s2 w2]]; simpl in *; [|contradiction].
    match goal with |- context [position_st ?x ?y ?z] => destruct (position_st x y z) as [o st] end. destruct Hm as [-> Hm].
    destruct st; [|congruence]. destruct o; reflexivity.
  Qed.
  Lemma run_scanner_w_pure : forall S (s : S) f g, answers f (fun sc => g (fst sc) (snd sc)) ->
    parses_as (W := W) (run_scanner_w s f) (run_scanner (I := I) s g).
  Proof.
    intros S s f g H w i. unfold run_scanner_w, run_scanner.
    assert (Hm : forall b s w, exists w', position_w (run_step f) b (s, w) =
      let (r, st) := position_st (fun (state : S) (c : I) => match g state c with None => (true, state) | Some v => (false, v) end) s b in
      (Some r, (st, w'))).
    { clear s w i. induction b as [|c b IH]; intros s w; simpl; eauto.
      unfold run_step at 1. simpl. destruct (answers_step (s, c) w H) as (w1 & ->). simpl. destruct (g s c) as [s1|]; simpl; eauto.
      destruct (IH s1 w1) as (w2 & ->).
      match goal with |- context [position_st ?x ?y ?z] => destruct (position_st x y z) as [o st] end. eauto. }
    destruct (Hm (buf i) s w) as (w2 & Hp). unfold run_step in Hp. rewrite Hp.
    match goal with |- context [position_st ?x ?y ?z] => destruct (position_st x y z) as [o st] end. destruct o; reflexivity.
  Qed.

  Lemma lifted_pure : forall T E (p : parser I T E), parses_as (W := W) (lifted p) p.
  Proof. intros T E p w i. reflexivity. Qed.
  Lemma option_w_pure : forall T E (f : sparser W I T E) p d, parses_as f p -> parses_as (option_w f d) (option_ p d).
  Proof. intros T E f p d H w i. unfold option_w, option_. specialize (H w i). destruct (f w i) as [r w1]. simpl in H. subst. destruct (p i); reflexivity. Qed.
  Lemma or_w_pure : forall T E (f g : sparser W I T E) p q, parses_as f p -> parses_as g q -> parses_as (or_w f g) (or_ p q).
  Proof.
    intros T E f g p q H H2 w i. unfold or_w, or_. specialize (H w i). destruct (f w i) as [r w1]. simpl in H. subst.
    destruct (p i); try reflexivity; [apply H2|]. destruct (last i); [apply H2|reflexivity].
  Qed.
  Lemma matched_by_w_pure : forall T E (f : sparser W I T E) p, parses_as f p -> parses_as (matched_by_w f) (matched_by p).
  Proof. intros T E f p H w i. unfold matched_by_w, matched_by. specialize (H w i). destruct (f w i) as [r w1]. simpl in H. subst. destruct (p i); reflexivity. Qed.
  Lemma look_ahead_w_pure : forall T E (f : sparser W I T E) p, parses_as f p -> parses_as (look_ahead_w f) (look_ahead p).
  Proof. intros T E f p H w i. unfold look_ahead_w, look_ahead. specialize (H w i). destruct (f w i) as [r w1]. simpl in H. subst. destruct (p i); reflexivity. Qed.
  Lemma map_err_id : forall T E (r : pres I T E), map_err (fun v => v) r = r.
  Proof. destruct r; reflexivity. Qed.
  Lemma bind_w_pure : forall T U E V (conv : callback W E V) c (r : pres I T E) (f : T -> sparser W I U V) g w, answers conv c ->
    (forall t, parses_as (f t) (fun i => g i t)) -> fst (bind_w conv r f w) = bind c r g.
  Proof.
    intros T U E V conv c r f g w H H2. destruct r as [i t|b e|n| |]; simpl; auto.
    - specialize (H2 t w i). destruct (f t w i) as [r w1]. simpl in H2. subst. destruct (g i t); reflexivity.
    - destruct (answers_step e w H) as (w1 & ->). reflexivity.
  Qed.
End Pure.

(** * Nothing but the callbacks acts on the world *)

Section Moves.
  Context {W I : Type}.
  Variable R : W -> W -> Prop.
  Hypothesis HR : preorder R.

  Lemma position_w_moves : forall A (f : callback W A bool) b w, acts R f -> R w (snd (position_w f b w)).
  Proof.
    intros A f b w H. revert w. induction b as [|c b IH]; intros w; simpl; [apply HR|].
    specialize (H c w). destruct (f c w) as [[[]|] w1]; simpl in *; auto.
    specialize (IH w1). destruct (position_w f b w1) as [[n|] w2]; simpl in *; eapply HR; eauto.
  Qed.
  Lemma is_false_acts : forall (f : callback W I bool), acts R f -> acts R (is_false f).
  Proof. intros f H c w. unfold is_false. specialize (H c w). destruct (f c w) as [[v|] w1]; simpl in *; auto. Qed.
  Lemma cloned_then_acts : forall icl (f : callback W I bool), acts R icl -> acts R f -> acts R (cloned_then icl f).
  Proof. intros icl f H H2 c w. unfold cloned_then. specialize (H c w). destruct (icl c w) as [[c'|] w1]; simpl in *; auto. eapply HR; [exact H|apply H2]. Qed.
  Lemma take_while_w_moves : forall (f : callback W I bool), acts R f -> moves R (take_while_w f).
  Proof.
    intros f H w i. unfold take_while_w. pose proof (position_w_moves (buf i) w (is_false_acts H)) as Hp.
    destruct (position_w (is_false f) (buf i) w) as [[[n|]|] w1]; exact Hp.
  Qed.
  Lemma take_while1_w_moves : forall verbose (f : callback W I bool), acts R f -> moves R (take_while1_w verbose f).
  Proof.
    intros v f H w i. unfold take_while1_w. pose proof (position_w_moves (buf i) w (is_false_acts H)) as Hp.
    destruct (position_w (is_false f) (buf i) w) as [[[[|n]|]|] w1]; exact Hp.
  Qed.
  Lemma take_till_w_moves : forall icl (f : callback W I bool), acts R icl -> acts R f -> moves R (take_till_w icl f).
  Proof.
    intros icl f H H2 w i. unfold take_till_w. pose proof (position_w_moves (buf i) w (cloned_then_acts H H2)) as Hp.
    destruct (position_w (cloned_then icl f) (buf i) w) as [[[n|]|] w1]; exact Hp.
  Qed.
  Lemma scanned_moves : forall S (f : callback W (S * I) (option S)) s w b s' w', acts R f -> scanned f s w b s' w' -> R w w'.
  Proof.
    intros S f s w b s' w' H Hs. induction Hs as [s w|s w c cs s1 w1 s2 w2 Hf Hs IH]; [apply HR|].
    eapply HR; [|exact IH]. specialize (H (s, c) w). rewrite Hf in H. exact H.
  Qed.
  Lemma scan_search_moves : forall S (f : callback W (S * I) (option S)) s w b v s' w', acts R f -> scan_search f s w b v s' w' -> R w w'.
  Proof.
    intros S f s w b v s' w' H Hs. destruct Hs as [s' w' Hc|cs d r s' w3 w' He Hc Hd|cs d r s' w3 w' He Hc Hd];
      pose proof (scanned_moves H Hc) as Hm; auto; (eapply HR; [exact Hm|]); specialize (H (s', d) w3); rewrite Hd in H; exact H.
  Qed.
  Lemma scan_w_moves : forall S (s : S) (f : callback W (S * I) (option S)), acts R f -> moves R (scan_w s f).
  Proof.
    intros S s f H w i. destruct (scan_w s f w i) as [r w'] eqn:Hr. apply scan_w_char in Hr. destruct Hr as (v & s' & Hs & _).
    exact (scan_search_moves H Hs).
  Qed.
  Lemma run_scanner_w_moves : forall S (s : S) (f : callback W (S * I) (option S)), acts R f -> moves R (run_scanner_w s f).
  Proof.
    intros S s f H w i. destruct (run_scanner_w s f w i) as [r w'] eqn:Hr. apply run_scanner_w_char in Hr. destruct Hr as (v & s' & Hs & _).
    exact (scan_search_moves H Hs).
  Qed.
  Lemma string_w_moves : forall verbose (ne : callback W (I * I) bool) s, acts R ne -> moves R (string_w verbose ne s).
  Proof.
    intros verbose ne s H w i. unfold string_w. destruct (length (buf i) <? length s); [apply HR|].
    assert (Hm : forall s d j w, R w (snd (string_mismatch_w ne j s d w))).
    { clear w i. induction s0 as [|x s0 IH]; intros [|y d] j w; simpl; try apply HR.
      specialize (H (x, y) w). destruct (ne (x, y) w) as [[[]|] w1]; simpl in *; auto. eapply HR; eauto. }
    specialize (Hm s (firstn (length s) (buf i)) 0 w). destruct (string_mismatch_w ne 0 s (firstn (length s) (buf i)) w) as [[[j|]|] w1]; exact Hm.
  Qed.
  Lemma satisfy_w_moves : forall verbose (f : callback W I bool), acts R f -> moves R (satisfy_w verbose f).
  Proof.
    intros v f H w i. unfold satisfy_w. destruct (first (buf i)) as [c|]; [|apply HR].
    specialize (H c w). destruct (f c w) as [[[]|] w1]; exact H.
  Qed.
  Lemma token_w_moves : forall verbose (eq : callback W (I * I) bool) t, acts R eq -> moves R (token_w verbose eq t).
  Proof.
    intros v f t H w i. unfold token_w. destruct (first (buf i)) as [c|]; [|apply HR].
    specialize (H (t, c) w). destruct (f (t, c) w) as [[[]|] w1]; exact H.
  Qed.
  Lemma not_token_w_moves : forall verbose (ne : callback W (I * I) bool) t, acts R ne -> moves R (not_token_w verbose ne t).
  Proof.
    intros v f t H w i. unfold not_token_w. destruct (first (buf i)) as [c|]; [|apply HR].
    specialize (H (t, c) w). destruct (f (t, c) w) as [[[]|] w1]; exact H.
  Qed.
  Lemma satisfy_with_w_moves : forall T verbose icl tcl (f : callback W I T) p, acts R icl -> acts R tcl -> acts R f -> acts R p ->
    moves R (satisfy_with_w verbose icl tcl f p).
  Proof.
    intros T v icl tcl f p H1 H2 H3 H4 w i. unfold satisfy_with_w. destruct (first (buf i)) as [c|]; [|apply HR].
    specialize (H1 c w). destruct (icl c w) as [[n|] w1]; auto. simpl in H1.
    specialize (H3 n w1). destruct (f n w1) as [[t|] w2]; simpl in *; [|eapply HR; eauto].
    specialize (H2 t w2). destruct (tcl t w2) as [[t'|] w3]; simpl in *; [|eapply HR; [|eassumption]; eapply HR; eauto].
    specialize (H4 t' w3). destruct (p t' w3) as [[[]|] w4]; simpl in *;
      (eapply HR; [|eassumption]; eapply HR; [|eassumption]; eapply HR; eauto).
  Qed.
  Lemma lifted_moves : forall T E (p : parser I T E), moves R (lifted p).
  Proof. intros T E p w i. apply HR. Qed.
  Lemma option_w_moves : forall T E (f : sparser W I T E) d, moves R f -> moves R (option_w f d).
  Proof. intros T E f d H w i. unfold option_w. specialize (H w i). destruct (f w i) as [[] w1]; exact H. Qed.
  Lemma or_w_moves : forall T E (f g : sparser W I T E), moves R f -> moves R g -> moves R (or_w f g).
  Proof.
    intros T E f g H H2 w i. unfold or_w. specialize (H w i). destruct (f w i) as [[j t|b e|n| |] w1]; simpl in *; auto.
    - eapply HR; [exact H|apply H2].
    - destruct (last i); [eapply HR; [exact H|apply H2]|exact H].
  Qed.
  Lemma matched_by_w_moves : forall T E (f : sparser W I T E), moves R f -> moves R (matched_by_w f).
  Proof. intros T E f H w i. unfold matched_by_w. specialize (H w i). destruct (f w i) as [[] w1]; exact H. Qed.
  Lemma look_ahead_w_moves : forall T E (f : sparser W I T E), moves R f -> moves R (look_ahead_w f).
  Proof. intros T E f H w i. unfold look_ahead_w. specialize (H w i). destruct (f w i) as [[] w1]; exact H. Qed.
  Lemma bind_w_moves : forall T U E V (conv : callback W E V) (p : sparser W I T E) (f : T -> sparser W I U V), acts R conv -> moves R p ->
    (forall t, moves R (f t)) -> moves R (fun w i => let (r, w) := p w i in bind_w conv r f w).
  Proof.
    intros T U E V conv p f H Hp H2 w i. specialize (Hp w i). destruct (p w i) as [[j t|b e|n| |] w1]; simpl in *; auto.
    - specialize (H2 t w1 j). destruct (f t w1 j) as [r w2]. simpl in H2.
      destruct r; simpl; eapply HR; eauto.
    - specialize (H e w1). destruct (conv e w1) as [[v|] w2]; simpl in *; eapply HR; eauto.
  Qed.
End Moves.
