(** Proofs about the macros: the rules find the first operator, the expansion follows the grammar. *)
From Coq Require Import List Bool Arith Lia.
From Verif Require Import Base Combinators Macro SpecMacro.
Import ListNotations.

Set Implicit Arguments.

(** * The rules look for the first operator *)
Section FirstOp.
  Variable op : list tok -> option (list tok).

  Fixpoint first_op (ts : list tok) : list tok * option (list tok) :=
    match op ts with
    | Some tail => ([], Some tail)
    | None => match ts with [] => ([], None) | t :: r => let (l, x) := first_op r in (t :: l, x) end
    end.

  Definition table (n : nat) : list rule := flat_map (fun k => [AtEnd k; AtOp k]) (seq 0 n) ++ [More n].

  Hypothesis op_nil : op [] = None.

  Lemma first_op_step ts :
    first_op ts = match op ts with
                  | Some tail => ([], Some tail)
                  | None => match ts with [] => ([], None) | t :: r => let (l, x) := first_op r in (t :: l, x) end
                  end.
  Proof. destruct ts; reflexivity. Qed.

  Lemma first_op_skipn k : forall ts l x, first_op ts = (l, x) -> k <= length l ->
    first_op (skipn k ts) = (skipn k l, x) /\ firstn k l = firstn k ts /\ k <= length ts.
  Proof.
    induction k; intros ts l x H Hk.
    - cbn [skipn firstn]. split; [exact H | split; [reflexivity | lia]].
    - rewrite first_op_step in H. destruct (op ts) as [t|] eqn:Ho.
      + inversion H; subst. cbn in Hk. lia.
      + destruct ts as [|t r].
        * inversion H; subst. cbn in Hk. lia.
        * destruct (first_op r) as [l' x'] eqn:Hr. inversion H; subst. cbn [length] in Hk.
          destruct (IHk r l' x Hr (le_S_n _ _ Hk)) as [H1 [H2 H3]]. cbn [skipn firstn length]. rewrite H2.
          split; [exact H1 | split; [reflexivity | lia]].
  Qed.

  Lemma first_op_none ts l : first_op ts = (l, None) -> l = ts.
  Proof.
    revert l. induction ts as [|t r IH]; intros l H; rewrite first_op_step in H.
    - rewrite op_nil in H. inversion H. reflexivity.
    - destruct (op (t :: r)); [discriminate|]. destruct (first_op r) as [l' x'] eqn:Hr. inversion H; subst.
      f_equal. apply IH. reflexivity.
  Qed.

  Lemma first_rule_table n lhs ts l x (Hf : first_op ts = (l, x)) : forall m s, s + m = n -> s <= length l ->
    first_rule op (flat_map (fun k => [AtEnd k; AtOp k]) (seq s m) ++ [More n]) lhs ts =
    if length l <? n then Some (match x with Some tail => Found (lhs ++ l) tail | None => Ended (lhs ++ l) end)
    else Some (Going (lhs ++ firstn n ts) (skipn n ts)).
  Proof.
    induction m; intros s Hs Hl.
    - cbn [seq flat_map app first_rule apply_rule].
      replace (length l <? n) with false by (symmetry; apply Nat.ltb_ge; lia).
      destruct (@first_op_skipn n ts l x Hf ltac:(lia)) as [_ [_ H]].
      apply Nat.leb_le in H. rewrite H. reflexivity.
    - cbn [seq flat_map app]. cbn [first_rule apply_rule].
      destruct (@first_op_skipn s ts l x Hf Hl) as [H1 [H2 H3]].
      destruct (length ts =? s) eqn:He.
      + apply Nat.eqb_eq in He.
        assert (Hsk : skipn s ts = []) by (apply skipn_all2; lia).
        rewrite Hsk in H1. rewrite first_op_step, op_nil in H1. inversion H1; subst x.
        apply first_op_none in Hf. subst l.
        replace (length ts <? n) with true by (symmetry; apply Nat.ltb_lt; lia). reflexivity.
      + rewrite first_op_step in H1. destruct (op (skipn s ts)) as [tail|].
        * inversion H1 as [[H4 H5]].
          assert (Hll : length l = s).
          { assert (length (skipn s l) = 0) by (rewrite <- H4; reflexivity). rewrite skipn_length in H. lia. }
          replace (length l <? n) with true by (symmetry; apply Nat.ltb_lt; lia).
          rewrite <- H2. rewrite <- Hll. rewrite firstn_all. reflexivity.
        * apply IHm; [lia|]. destruct (Nat.eq_dec s (length l)) as [E|]; [|lia]. exfalso.
          apply Nat.eqb_neq in He. rewrite (skipn_all2 l) in H1 by lia.
          destruct (skipn s ts) as [|t r] eqn:Ht.
          { assert (length (skipn s ts) = 0) by (rewrite Ht; reflexivity). rewrite skipn_length in H. lia. }
          destruct (first_op r). discriminate.
  Qed.

  Lemma munch_table n (Hn : n <> 0) : forall fuel lhs ts l x, first_op ts = (l, x) -> length ts < fuel ->
    munch op (table n) fuel lhs ts = Some (lhs ++ l, x).
  Proof.
    induction fuel; intros lhs ts l x Hf Hl; [lia|]. cbn [munch]. unfold table.
    rewrite (@first_rule_table n lhs ts l x Hf n 0 eq_refl (Nat.le_0_l _)).
    destruct (length l <? n) eqn:Hc.
    - destruct x; reflexivity.
    - apply Nat.ltb_ge in Hc. destruct (@first_op_skipn n ts l x Hf Hc) as [H1 [H2 H3]].
      change (flat_map (fun k => [AtEnd k; AtOp k]) (seq 0 n) ++ [More n]) with (table n).
      rewrite (IHfuel (lhs ++ firstn n ts) _ _ _ H1) by (rewrite skipn_length; lia).
      rewrite <- H2. rewrite <- app_assoc, firstn_skipn. reflexivity.
  Qed.

  Lemma search_table n ts : n <> 0 -> search op (table n) ts = Some (first_op ts).
  Proof.
    intros Hn. unfold search. destruct (first_op ts) as [l x] eqn:Hf.
    rewrite (munch_table Hn [] ts Hf) by lia. reflexivity.
  Qed.

  (** No operator at all. *)
  Definition clear (ts : list tok) : Prop := first_op ts = (ts, None).

  Lemma clear_nil : clear [].
  Proof. unfold clear. rewrite first_op_step, op_nil. reflexivity. Qed.
  Lemma clear_cons t r : clear (t :: r) <-> op (t :: r) = None /\ clear r.
  Proof.
    unfold clear. rewrite first_op_step. destruct (op (t :: r)) as [y|].
    - split; [discriminate | intros [H _]; discriminate].
    - destruct (first_op r) as [l x]. split.
      + intros H. inversion H; subst. split; reflexivity.
      + intros [_ H]. inversion H; subst. reflexivity.
  Qed.

  (** The operator is the token list [pat], whose first token occurs only there. *)
  Variable h : tok.
  Variable q : list tok.
  Hypothesis op_pat : forall ts t, op ts = Some t <-> ts = (h :: q) ++ t.
  Hypothesis h_once : ~ In h q.

  Lemma first_op_found l r : clear l -> first_op (l ++ (h :: q) ++ r) = (l, Some r).
  Proof.
    induction l as [|t l IH]; intros Hc.
    - rewrite first_op_step. replace (op ([] ++ (h :: q) ++ r)) with (Some r); [reflexivity|].
      symmetry. apply op_pat. reflexivity.
    - apply clear_cons in Hc. destruct Hc as [Ho Hc]. rewrite first_op_step.
      destruct (op ((t :: l) ++ (h :: q) ++ r)) as [r'|] eqn:He.
      + exfalso. apply op_pat in He. apply app_eq_app in He. destruct He as [w [[H1 H2]|[H1 H2]]].
        * assert (op (t :: l) = Some w) by (apply op_pat; exact H1). congruence.
        * destruct w as [|w0 w].
          { rewrite app_nil_r in H1. assert (op (t :: l) = Some []) by (apply op_pat; rewrite app_nil_r; congruence). congruence. }
          cbn [app] in H1, H2. inversion H1; subst t. inversion H2; subst w0.
          apply h_once. rewrite H3. apply in_or_app. right. left. reflexivity.
      + change ((t :: l) ++ (h :: q) ++ r) with (t :: (l ++ (h :: q) ++ r)). cbv iota beta. rewrite (IH Hc). reflexivity.
  Qed.

  Lemma first_op_some ts : forall l r, first_op ts = (l, Some r) -> ts = l ++ (h :: q) ++ r /\ clear l.
  Proof.
    induction ts as [|t ts IH]; intros l r H; rewrite first_op_step in H.
    - rewrite op_nil in H. discriminate.
    - destruct (op (t :: ts)) as [y|] eqn:Ho.
      + inversion H; subst. apply op_pat in Ho. split; [exact Ho | apply clear_nil].
      + destruct (first_op ts) as [l' x'] eqn:Hr. inversion H; subst.
        destruct (IH l' r eq_refl) as [H1 H2]. subst ts. split; [reflexivity|].
        apply clear_cons. split; [|exact H2].
        destruct (op (t :: l')) as [y|] eqn:Hy; [|reflexivity]. exfalso.
        apply op_pat in Hy.
        assert (op (t :: l' ++ (h :: q) ++ r) = Some (y ++ (h :: q) ++ r)).
        { apply op_pat. change (t :: l' ++ (h :: q) ++ r) with ((t :: l') ++ (h :: q) ++ r). rewrite Hy. rewrite <- app_assoc. reflexivity. }
        congruence.
  Qed.

  Lemma clear_free ts : clear ts <-> forall l r, ts <> l ++ (h :: q) ++ r.
  Proof.
    split.
    - intros Hc l r ->. induction l as [|t l IH].
      + cbn [app] in Hc. apply clear_cons in Hc. destruct Hc as [Ho _].
        assert (op ((h :: q) ++ r) = Some r) by (apply op_pat; reflexivity). cbn [app] in *. congruence.
      + cbn [app] in Hc. apply clear_cons in Hc. apply IH. apply Hc.
    - intros H. destruct (first_op ts) as [l [r|]] eqn:Hf.
      + apply first_op_some in Hf. destruct Hf as [Hf _]. exfalso. exact (H _ _ Hf).
      + unfold clear. rewrite Hf. apply first_op_none in Hf. subst. reflexivity.
  Qed.
End FirstOp.

(** * The four operators *)
Lemma shr_pat ts t : op_shr ts = Some t <-> ts = [Shr] ++ t.
Proof. split; [|intros ->; reflexivity]. destruct ts as [|[] ]; cbn; intros H; inversion H; reflexivity. Qed.
Lemma semi_pat ts t : op_semi ts = Some t <-> ts = [Semi] ++ t.
Proof. split; [|intros ->; reflexivity]. destruct ts as [|[] ]; cbn; intros H; inversion H; reflexivity. Qed.
Lemma alt_pat ts t : op_alt ts = Some t <-> ts = [Lt; Bar; Gt] ++ t.
Proof.
  split; [|intros ->; reflexivity].
  destruct ts as [|[] ts]; cbn; try discriminate. destruct ts as [|[] ts]; cbn; try discriminate.
  destruct ts as [|[] ts]; cbn; try discriminate. intros H; inversion H; reflexivity.
Qed.
Lemma skip_pat ts t : op_skip ts = Some t <-> ts = [Lt; Star] ++ t.
Proof.
  split; [|intros ->; reflexivity].
  destruct ts as [|[] ts]; cbn; try discriminate. destruct ts as [|[] ts]; cbn; try discriminate.
  intros H; inversion H; reflexivity.
Qed.

Lemma search_shr ts : search op_shr expr_rules ts = Some (first_op op_shr ts).
Proof. change expr_rules with (table 8). apply search_table; [reflexivity | discriminate]. Qed.
Lemma search_alt ts : search op_alt alt_rules ts = Some (first_op op_alt ts).
Proof. change alt_rules with (table 8). apply search_table; [reflexivity | discriminate]. Qed.
Lemma search_skip ts : search op_skip skip_rules ts = Some (first_op op_skip ts).
Proof. change skip_rules with (table 5). apply search_table; [reflexivity | discriminate]. Qed.
Lemma search_semi ts : search op_semi statement_rules ts = Some (first_op op_semi ts).
Proof. change statement_rules with (table 11). apply search_table; [reflexivity | discriminate]. Qed.

Lemma found_shr l r : clear op_shr l -> first_op op_shr (l ++ Shr :: r) = (l, Some r).
Proof. exact (@first_op_found op_shr Shr [] shr_pat (fun x => x) l r). Qed.
Lemma found_semi l r : clear op_semi l -> first_op op_semi (l ++ Semi :: r) = (l, Some r).
Proof. exact (@first_op_found op_semi Semi [] semi_pat (fun x => x) l r). Qed.
Lemma found_alt l r : clear op_alt l -> first_op op_alt (l ++ Lt :: Bar :: Gt :: r) = (l, Some r).
Proof. apply (@first_op_found op_alt Lt [Bar; Gt] alt_pat). cbn. intuition discriminate. Qed.
Lemma found_skip l r : clear op_skip l -> first_op op_skip (l ++ Lt :: Star :: r) = (l, Some r).
Proof. apply (@first_op_found op_skip Lt [Star] skip_pat). cbn. intuition discriminate. Qed.

Lemma plain_clear ts : plain ts <-> clear op_shr ts /\ clear op_alt ts /\ clear op_skip ts /\ clear op_semi ts.
Proof.
  unfold plain.
  rewrite (clear_free op_shr eq_refl shr_pat), (clear_free op_semi eq_refl semi_pat),
    (clear_free op_alt eq_refl alt_pat), (clear_free op_skip eq_refl skip_pat).
  reflexivity.
Qed.

(** Joining runs without an operator by another operator. *)
Lemma clear_shr_app l r : clear op_shr l -> clear op_shr r -> clear op_shr (l ++ r).
Proof.
  induction l as [|t l IH]; intros Hl Hr; [exact Hr|]. cbn [app]. apply clear_cons in Hl. apply clear_cons. destruct Hl as [Ho Hl].
  split; [|auto]. destruct t; cbn in *; congruence.
Qed.
Lemma clear_semi_app l r : clear op_semi l -> clear op_semi r -> clear op_semi (l ++ r).
Proof.
  induction l as [|t l IH]; intros Hl Hr; [exact Hr|]. cbn [app]. apply clear_cons in Hl. apply clear_cons. destruct Hl as [Ho Hl].
  split; [|auto]. destruct t; cbn in *; congruence.
Qed.
Lemma clear_alt_skip l r : clear op_alt l -> clear op_alt r -> clear op_alt (l ++ Lt :: Star :: r).
Proof.
  induction l as [|t l IH]; intros Hl Hr.
  - cbn [app]. apply clear_cons. split; [reflexivity|]. apply clear_cons. split; [reflexivity | exact Hr].
  - cbn [app]. apply clear_cons in Hl. apply clear_cons. destruct Hl as [Ho Hl]. split; [|auto].
    destruct t; try reflexivity. destruct l as [|[] l]; try reflexivity. destruct l as [|[] l]; try reflexivity.
    discriminate Ho.
Qed.

(** * The grammar gives runs without the operators of the lower levels *)
Scheme g_expr_mind := Induction for g_expr Sort Prop
  with g_alt_mind := Induction for g_alt Sort Prop
  with g_skip_mind := Induction for g_skip Sort Prop
  with g_term_mind := Induction for g_term Sort Prop.
Combined Scheme g_mind from g_expr_mind, g_alt_mind, g_skip_mind, g_term_mind.

Ltac clears := repeat (apply clear_cons; split; [reflexivity|]); try exact (clear_nil _ eq_refl); auto.

Section Clear.
  Variable rc : rustc.

  Lemma g_term_plain l a : g_term rc plain l a -> plain l.
  Proof.
    intros H. apply plain_clear. destruct H as [? ? ? ? Hp|? Hp|? ? ? ? Hp|? Hp| |? ? ? ? Hp|];
      try (apply plain_clear in Hp; destruct Hp as (? & ? & ? & ?)); repeat split; clears.
  Qed.
  Lemma g_skip_clear l a : g_skip rc plain l a -> clear op_shr l /\ clear op_alt l /\ clear op_semi l.
  Proof.
    induction 1 as [l a Ht|l a r b Ht Hs (H1 & H2 & H3)].
    - apply g_term_plain, plain_clear in Ht. tauto.
    - apply g_term_plain, plain_clear in Ht. destruct Ht as (? & ? & ? & ?). repeat split.
      + apply clear_shr_app; clears.
      + apply clear_alt_skip; clears.
      + apply clear_semi_app; clears.
  Qed.
  Lemma g_alt_clear l a : g_alt rc plain l a -> clear op_shr l /\ clear op_semi l.
  Proof.
    induction 1 as [l a Ht|l a r b Ht Hs (H1 & H2)]; apply g_skip_clear in Ht; [tauto|].
    destruct Ht as (? & ? & ?). split; [apply clear_shr_app | apply clear_semi_app]; clears.
  Qed.
  Lemma g_expr_clear l a : g_expr rc plain l a -> clear op_semi l.
  Proof.
    induction 1 as [l a Ht|l a r b Ht Hs H]; apply g_alt_clear in Ht; [tauto|].
    destruct Ht. apply clear_semi_app; clears.
  Qed.
End Clear.

(** * The code for a phrase *)
Fixpoint emit (i : nat) (e : expr) : code :=
  match e with
  | EThen a b => CBind (emit i a) BUnder (emit 0 b)
  | EAlt a b => COr i (emit 0 a) (emit 0 b)
  | ESkip a b => CSkip (emit i a) (emit 0 b)
  | ERet e => CRet i e
  | ERetTyped t u e => CRetTyped i t u e
  | EErr e => CErr i e
  | EErrTyped t u e => CErrTyped i t u e
  | EInline s e => CInline s i e
  | ENamed f ps => CCall f i ps
  end.
Fixpoint emit_block (i : nat) (b : block) : code :=
  match b with
  | BLast e => emit i e
  | BDo e k => CBind (emit i e) BUnder (emit_block 0 k)
  | BLet v e k => CBind (emit i e) v (emit_block 0 k)
  end.

(** * Sizes *)
Lemma toks_size_app a b : toks_size (a ++ b) = toks_size a + toks_size b.
Proof. unfold toks_size. rewrite map_app, list_sum_app. reflexivity. Qed.
Lemma toks_size_cons t b : toks_size (t :: b) = tok_size t + toks_size b.
Proof. reflexivity. Qed.
Lemma tok_size_group l : tok_size (Group l) = S (toks_size l).
Proof. reflexivity. Qed.
Lemma tok_size_pos t : 1 <= tok_size t.
Proof. destruct t; cbn [tok_size]; lia. Qed.

Ltac sizes := repeat (rewrite toks_size_app in * || rewrite toks_size_cons in * || rewrite tok_size_group in *);
  pose proof (tok_size_pos Shr); pose proof (tok_size_pos Semi); pose proof (tok_size_pos Lt); pose proof (tok_size_pos Star);
  pose proof (tok_size_pos Eq); pose proof (tok_size_pos Let).

(** * Everything the grammar derives is expanded *)
Section Complete.
  Variable rc : rustc.
  Hypothesis Hrc : lawful rc.

  Lemma whole_expr_iff ts : whole_expr rc ts = is_expr rc ts.
  Proof. destruct ts; [|reflexivity]. cbn. symmetry. apply law_expr. exact Hrc. Qed.

  Lemma complete_expr :
    (forall l a, g_expr rc plain l a -> forall fuel i, 3 * toks_size l + 3 <= fuel -> expand_expr rc fuel i l = Some (emit i a)) /\
    (forall l a, g_alt rc plain l a -> forall fuel i, 3 * toks_size l + 2 <= fuel -> expand_alt rc fuel i l = Some (emit i a)) /\
    (forall l a, g_skip rc plain l a -> forall fuel i, 3 * toks_size l + 1 <= fuel -> expand_skip rc fuel i l = Some (emit i a)) /\
    (forall l a, g_term rc plain l a -> forall fuel i, 3 * toks_size l <= fuel ->
       expand_term rc (expand_expr rc fuel i) i l = Some (emit i a)).
  Proof.
    apply (g_mind
      (fun l a _ => forall fuel i, 3 * toks_size l + 3 <= fuel -> expand_expr rc fuel i l = Some (emit i a))
      (fun l a _ => forall fuel i, 3 * toks_size l + 2 <= fuel -> expand_alt rc fuel i l = Some (emit i a))
      (fun l a _ => forall fuel i, 3 * toks_size l + 1 <= fuel -> expand_skip rc fuel i l = Some (emit i a))
      (fun l a _ => forall fuel i, 3 * toks_size l <= fuel -> expand_term rc (expand_expr rc fuel i) i l = Some (emit i a))).
    - intros l a Ha IH fuel i Hf. destruct fuel as [|fuel]; [lia|]. cbn [expand_expr]. rewrite search_shr.
      apply g_alt_clear in Ha. destruct Ha as [Hc _]. rewrite Hc. apply IH. lia.
    - intros l a r b Ha IHa Hb IHb fuel i Hf. destruct fuel as [|fuel]; [lia|]. cbn [expand_expr]. rewrite search_shr.
      pose proof (g_alt_clear Ha) as [Hc _].
      rewrite (found_shr r Hc).
      sizes. rewrite IHa, IHb by lia. reflexivity.
    - intros l a Ha IH fuel i Hf. destruct fuel as [|fuel]; [lia|]. cbn [expand_alt]. rewrite search_alt.
      apply g_skip_clear in Ha. destruct Ha as (_ & Hc & _). rewrite Hc. apply IH. lia.
    - intros l a r b Ha IHa Hb IHb fuel i Hf. destruct fuel as [|fuel]; [lia|]. cbn [expand_alt]. rewrite search_alt.
      pose proof (g_skip_clear Ha) as (_ & Hc & _).
      rewrite (found_alt r Hc).
      sizes. rewrite IHa, IHb by lia. reflexivity.
    - intros l a Ha IH fuel i Hf. destruct fuel as [|fuel]; [lia|]. cbn [expand_skip]. rewrite search_skip.
      apply g_term_plain, plain_clear in Ha. destruct Ha as (_ & _ & Hc & _). rewrite Hc. apply IH. lia.
    - intros l a r b Ha IHa Hb IHb fuel i Hf. destruct fuel as [|fuel]; [lia|]. cbn [expand_skip]. rewrite search_skip.
      pose proof (g_term_plain Ha) as Hp. apply plain_clear in Hp. destruct Hp as (_ & _ & Hc & _).
      rewrite (found_skip r Hc).
      sizes. rewrite IHa, IHb by lia. reflexivity.
    - intros r t u e Hl Ht fuel i _. cbn. rewrite Ht. reflexivity.
    - intros e Hl He fuel i _. cbn. pose proof (whole_expr_iff e) as Hw. rewrite He in Hw. rewrite Hw.
      destruct e as [|[] e]; try reflexivity. rewrite (law_at Hrc) in He. discriminate.
    - intros r t u e Hl Ht fuel i _. cbn. rewrite Ht. reflexivity.
    - intros e Hl He fuel i _. cbn. pose proof (whole_expr_iff e) as Hw. rewrite He in Hw. rewrite Hw.
      destruct e as [|[] e]; try reflexivity. rewrite (law_at Hrc) in He. discriminate.
    - intros l a Ha IH fuel i Hf. cbn [expand_term]. sizes. apply IH. unfold toks_size in *. cbn in Hf. cbn. lia.
    - intros s e Hs1 Hs2 Hl He fuel i _. cbn [expand_term]. apply Nat.eqb_neq in Hs1, Hs2. rewrite Hs1, Hs2.
      rewrite whole_expr_iff, He. reflexivity.
    - intros f l ps Hf1 Hf2 Ha fuel i _. cbn [expand_term]. apply Nat.eqb_neq in Hf1, Hf2. rewrite Hf1, Hf2, Ha. reflexivity.
  Qed.

  Lemma g_expr_nonempty leaf :
    (forall l a, g_expr rc leaf l a -> l <> [] /\ hd_error l <> Some Let) /\
    (forall l a, g_alt rc leaf l a -> l <> [] /\ hd_error l <> Some Let) /\
    (forall l a, g_skip rc leaf l a -> l <> [] /\ hd_error l <> Some Let) /\
    (forall l a, g_term rc leaf l a -> l <> [] /\ hd_error l <> Some Let).
  Proof.
    apply (g_mind (fun l a _ => l <> [] /\ hd_error l <> Some Let) (fun l a _ => l <> [] /\ hd_error l <> Some Let)
      (fun l a _ => l <> [] /\ hd_error l <> Some Let) (fun l a _ => l <> [] /\ hd_error l <> Some Let)); auto;
      try (intros; split; discriminate);
      intros l a r b _ [Ha Ha'] _ _; destruct l; try congruence; cbn in *; split; congruence.
  Qed.

  Lemma g_block_nonempty leaf trailing ts b : g_block rc leaf trailing ts b -> ts <> [].
  Proof.
    destruct 1 as [l e He|l e _ He|l e r k He _|v p l e r k|v x ty l e r k]; try discriminate;
      try (destruct l; discriminate). apply g_expr_nonempty in He. tauto.
  Qed.

  Lemma head_expr leaf l a r : g_expr rc leaf l a -> statement_head rc (l ++ r) = (BUnder, l ++ r).
  Proof.
    intros H. apply g_expr_nonempty in H. destruct H as [H1 H2]. destruct l as [|t l]; [congruence|].
    cbn [app statement_head]. destruct t; try reflexivity. cbn in H2. congruence.
  Qed.

  Lemma complete_block trailing ts b : g_block rc plain trailing ts b ->
    forall fuel i, 4 * toks_size ts + 4 <= fuel -> expand_block rc fuel i ts = Some (emit_block i b).
  Proof.
    destruct complete_expr as [HX _].
    induction 1 as [l e He|l e Htr He|l e r k He Hk IH|v p l e r k Hv He Hk IH|v x ty l e r k Hv He Hk IH];
      intros fuel i Hf; (destruct fuel as [|fuel]; [lia|]); cbn [expand_block].
    - pose proof (head_expr [] He) as Hh. rewrite app_nil_r in Hh. rewrite Hh.
      rewrite search_semi. rewrite (g_expr_clear He). cbn [expand_bind emit_block].
      pose proof (HX _ _ He fuel i ltac:(lia)) as Hx.
      destruct l; [destruct (proj1 (g_expr_nonempty _) _ _ He); congruence|]. exact Hx.
    - rewrite (head_expr [Semi] He). rewrite search_semi.
      rewrite (found_semi [] (g_expr_clear He)).
      cbn [expand_bind emit_block]. sizes.
      pose proof (HX _ _ He fuel i ltac:(lia)) as Hx.
      destruct l; [destruct (proj1 (g_expr_nonempty _) _ _ He); congruence|]. exact Hx.
    - rewrite (head_expr (Semi :: r) He). rewrite search_semi.
      rewrite (found_semi r (g_expr_clear He)).
      sizes. cbn [emit_block].
      pose proof (HX _ _ He fuel i ltac:(lia)) as Hx.
      pose proof (g_block_nonempty Hk) as Hne.
      destruct l as [|t l]; [destruct (proj1 (g_expr_nonempty _) _ _ He); congruence|].
      destruct r as [|t' r]; [congruence|]. cbn [app expand_bind].
      rewrite Hx, (IH fuel 0) by lia. reflexivity.
    - cbn [statement_head]. rewrite Hv. pose proof (law_let_pat Hrc _ Hv) as Hsz.
      pose proof (g_block_nonempty Hk) as Hne.
      destruct (proj1 (g_expr_nonempty _) _ _ He) as [Hle _].
      destruct l as [|t l]; [congruence|]. cbn [app].
      rewrite search_semi. pose proof (found_semi r (g_expr_clear He)) as Hff.
      cbn [app] in Hff. rewrite Hff. cbn [expand_bind emit_block].
      subst v. sizes.
      assert (Hfu : 3 * toks_size (t :: l) + 3 <= fuel) by (rewrite toks_size_cons; lia).
      rewrite (HX _ _ He fuel i Hfu).
      destruct r as [|t' r]; [congruence|].
      assert (Hfr : 4 * toks_size (t' :: r) + 4 <= fuel) by (sizes; lia).
      rewrite (IH fuel 0 Hfr). reflexivity.
    - cbn [statement_head].
      destruct (let_pat rc v) as [[p rest]|] eqn:Hlp.
      { rewrite (law_let Hrc v) in Hv by congruence. discriminate. }
      rewrite Hv. pose proof (law_let_typed Hrc _ Hv) as Hsz.
      pose proof (g_block_nonempty Hk) as Hne.
      destruct (proj1 (g_expr_nonempty _) _ _ He) as [Hle _].
      destruct l as [|t l]; [congruence|]. cbn [app].
      rewrite search_semi. pose proof (found_semi r (g_expr_clear He)) as Hff.
      cbn [app] in Hff. rewrite Hff. cbn [expand_bind emit_block].
      subst v. sizes.
      assert (Hfu : 3 * toks_size (t :: l) + 3 <= fuel) by (rewrite toks_size_cons; lia).
      rewrite (HX _ _ He fuel i Hfu).
      destruct r as [|t' r]; [congruence|].
      assert (Hfr : 4 * toks_size (t' :: r) + 4 <= fuel) by (sizes; lia).
      rewrite (IH fuel 0 Hfr). reflexivity.
  Qed.
End Complete.

(** One level of the expansion. *)
Lemma expand_expr_S rc fuel input ts :
  expand_expr rc (S fuel) input ts =
  match search op_shr expr_rules ts with
  | Some (lhs, None) => expand_alt rc fuel input lhs
  | Some (lhs, Some tail) =>
      match expand_alt rc fuel input lhs, expand_expr rc fuel 0 tail with
      | Some a, Some b => Some (CBind a BUnder b)
      | _, _ => None
      end
  | None => None
  end.
Proof. reflexivity. Qed.
Lemma expand_alt_S rc fuel input ts :
  expand_alt rc (S fuel) input ts =
  match search op_alt alt_rules ts with
  | Some (lhs, None) => expand_skip rc fuel input lhs
  | Some (lhs, Some tail) =>
      match expand_skip rc fuel 0 lhs, expand_alt rc fuel 0 tail with
      | Some a, Some b => Some (COr input a b)
      | _, _ => None
      end
  | None => None
  end.
Proof. reflexivity. Qed.
Lemma expand_skip_S rc fuel input ts :
  expand_skip rc (S fuel) input ts =
  match search op_skip skip_rules ts with
  | Some (lhs, None) => expand_term rc (expand_expr rc fuel input) input lhs
  | Some (lhs, Some tail) =>
      match expand_term rc (expand_expr rc fuel input) input lhs, expand_skip rc fuel 0 tail with
      | Some a, Some b => Some (CSkip a b)
      | _, _ => None
      end
  | None => None
  end.
Proof. reflexivity. Qed.

(** * Everything expanded is derived by the grammar *)
Lemma clear_semi_in ts : ~ In Semi ts -> clear op_semi ts.
Proof.
  induction ts as [|t ts IH]; intros H; [apply clear_nil; reflexivity|]. apply clear_cons. split.
  - destruct t; try reflexivity. exfalso. apply H. left. reflexivity.
  - apply IH. intros Hi. apply H. right. exact Hi.
Qed.

Section Sound.
  Variable rc : rustc.
  Hypothesis Hrc : lawful rc.

  Lemma sound_term inner i l c :
    clear op_shr l -> clear op_alt l -> clear op_skip l ->
    (forall x d, inner x = Some d -> exists a, g_expr rc plain x a /\ d = emit i a) ->
    expand_term rc inner i l = Some c -> exists a, g_term rc plain l a /\ c = emit i a.
  Proof.
    intros H1 H2 H3 Hin H. unfold expand_term in H.
    assert (Htail : forall t r, l = t :: r -> clear op_shr r /\ clear op_alt r /\ clear op_skip r).
    { intros t r ->. apply clear_cons in H1, H2, H3. tauto. }
    assert (Htail2 : forall t u r, l = t :: u :: r -> clear op_shr r /\ clear op_alt r /\ clear op_skip r).
    { intros t u r ->. apply clear_cons in H1, H2, H3. destruct H1 as [_ H1], H2 as [_ H2], H3 as [_ H3].
      apply clear_cons in H1, H2, H3. tauto. }
    assert (Hleaf : forall r, is_expr rc r = true -> clear op_shr r /\ clear op_alt r /\ clear op_skip r -> plain r).
    { intros r Hr (C1 & C2 & C3). apply plain_clear. repeat split; auto. apply clear_semi_in. exact (law_expr_semi Hrc _ Hr). }
    assert (Hleaft : forall r x, typed rc r = Some x -> clear op_shr r /\ clear op_alt r /\ clear op_skip r -> plain r).
    { intros r x Hr (C1 & C2 & C3). apply plain_clear. repeat split; auto. apply clear_semi_in. exact (law_typed_semi Hrc _ Hr). }
    destruct l as [|t rest]; [discriminate|]. destruct t as [| | | | | | | | | | | |f|g|o]; try discriminate.
    - specialize (Htail _ _ eq_refl). pose proof (fun u r => Htail2 (Ident f) u r) as Ht2.
      destruct (f =? kw_ret) eqn:Hr.
      { apply Nat.eqb_eq in Hr. subst f.
        assert (Hplain : (if whole_expr rc rest then Some (CRet i rest) else None) = Some c ->
                         exists a, g_term rc plain (Ident kw_ret :: rest) a /\ c = emit i a).
        { rewrite (whole_expr_iff Hrc). destruct (is_expr rc rest) eqn:He; [|discriminate]. intros Hc. inversion Hc; subst.
          exists (ERet rest). split; [|reflexivity]. apply g_ret; auto. }
        destruct rest as [|t rest]; [exact (Hplain H)|]. destruct t; try exact (Hplain H).
        destruct (typed rc rest) as [[[ty u] e]|] eqn:Hty; [|exact (Hplain H)].
        inversion H; subst. exists (ERetTyped ty u e). split; [|reflexivity]. apply g_ret_typed; [|exact Hty].
        exact (Hleaft _ _ Hty (Ht2 _ _ eq_refl)). }
      destruct (f =? kw_err) eqn:He.
      { apply Nat.eqb_eq in He. subst f.
        assert (Hplain : (if whole_expr rc rest then Some (CErr i rest) else None) = Some c ->
                         exists a, g_term rc plain (Ident kw_err :: rest) a /\ c = emit i a).
        { rewrite (whole_expr_iff Hrc). destruct (is_expr rc rest) eqn:He; [|discriminate]. intros Hc. inversion Hc; subst.
          exists (EErr rest). split; [|reflexivity]. apply g_err; auto. }
        destruct rest as [|t rest]; [exact (Hplain H)|]. destruct t; try exact (Hplain H).
        destruct (typed rc rest) as [[[ty u] e]|] eqn:Hty; [|exact (Hplain H)].
        inversion H; subst. exists (EErrTyped ty u e). split; [|reflexivity]. apply g_err_typed; [|exact Hty].
        exact (Hleaft _ _ Hty (Ht2 _ _ eq_refl)). }
      apply Nat.eqb_neq in Hr, He.
      destruct rest as [|t rest]; [discriminate|]. destruct t as [| | | | | | | | | | | |x|g|o]; try discriminate.
      + rewrite (whole_expr_iff Hrc) in H. destruct (is_expr rc rest) eqn:Hx; [|discriminate]. inversion H; subst.
        exists (EInline f rest). split; [|reflexivity]. apply g_inline; auto. exact (Hleaf _ Hx (Ht2 _ _ eq_refl)).
      + destruct rest; [|discriminate]. destruct (args rc g) as [ps|] eqn:Ha; [|discriminate]. inversion H; subst.
        exists (ENamed f ps). split; [|reflexivity]. apply g_named; auto.
    - destruct rest; [|discriminate]. destruct (Hin _ _ H) as [a [Ha ->]]. exists a. split; [|reflexivity]. apply g_paren. exact Ha.
  Qed.

  Lemma clear_sub_shr l r : clear op_shr (l ++ r) -> clear op_shr l /\ clear op_shr r.
  Proof.
    induction l as [|t l IH]; intros H; [split; [apply clear_nil; reflexivity | exact H]|].
    cbn [app] in H. apply clear_cons in H. destruct H as [Ho H]. destruct (IH H) as [H1 H2]. split; [|exact H2].
    apply clear_cons. split; [|exact H1]. destruct t; try reflexivity. discriminate Ho.
  Qed.
  Lemma clear_sub_alt l r : clear op_alt (l ++ r) -> clear op_alt l /\ clear op_alt r.
  Proof.
    induction l as [|t l IH]; intros H; [split; [apply clear_nil; reflexivity | exact H]|].
    cbn [app] in H. apply clear_cons in H. destruct H as [Ho H]. destruct (IH H) as [H1 H2]. split; [|exact H2].
    apply clear_cons. split; [|exact H1]. destruct t; try reflexivity. destruct l as [|[] [|[] l]]; try reflexivity. discriminate Ho.
  Qed.

  Lemma sound_expr fuel :
    (forall i l c, expand_expr rc fuel i l = Some c -> exists a, g_expr rc plain l a /\ c = emit i a) /\
    (forall i l c, clear op_shr l -> expand_alt rc fuel i l = Some c -> exists a, g_alt rc plain l a /\ c = emit i a) /\
    (forall i l c, clear op_shr l -> clear op_alt l -> expand_skip rc fuel i l = Some c -> exists a, g_skip rc plain l a /\ c = emit i a).
  Proof.
    induction fuel as [|fuel (IHe & IHa & IHs)]; [repeat split; intros; discriminate|]. repeat split.
    - intros i l c H. rewrite expand_expr_S in H. rewrite search_shr in H.
      destruct (first_op op_shr l) as [lhs [tail|]] eqn:Hf.
      + apply (first_op_some op_shr eq_refl shr_pat) in Hf. destruct Hf as [-> Hc].
        destruct (expand_alt rc fuel i lhs) as [ca|] eqn:Ea; [|discriminate].
        destruct (expand_expr rc fuel 0 tail) as [cb|] eqn:Eb; [|discriminate]. inversion H; subst.
        destruct (IHa _ _ _ Hc Ea) as [a [Ha ->]]. destruct (IHe _ _ _ Eb) as [b [Hb ->]].
        exists (EThen a b). split; [|reflexivity]. apply g_expr_then; assumption.
      + pose proof (first_op_none op_shr eq_refl _ Hf) as ->.
        destruct (IHa _ _ _ Hf H) as [a [Ha ->]]. exists a. split; [|reflexivity]. apply g_expr_alt. exact Ha.
    - intros i l c Hs H. rewrite expand_alt_S in H. rewrite search_alt in H.
      destruct (first_op op_alt l) as [lhs [tail|]] eqn:Hf.
      + apply (first_op_some op_alt eq_refl alt_pat) in Hf. destruct Hf as [-> Hc].
        apply clear_sub_shr in Hs. destruct Hs as [Hs1 Hs2]. apply clear_sub_shr in Hs2. destruct Hs2 as [_ Hs2].
        destruct (expand_skip rc fuel 0 lhs) as [ca|] eqn:Ea; [|discriminate].
        destruct (expand_alt rc fuel 0 tail) as [cb|] eqn:Eb; [|discriminate]. inversion H; subst.
        destruct (IHs _ _ _ Hs1 Hc Ea) as [a [Ha ->]]. destruct (IHa _ _ _ Hs2 Eb) as [b [Hb ->]].
        exists (EAlt a b). split; [|reflexivity]. apply g_alt_alt; assumption.
      + pose proof (first_op_none op_alt eq_refl _ Hf) as ->.
        destruct (IHs _ _ _ Hs Hf H) as [a [Ha ->]]. exists a. split; [|reflexivity]. apply g_alt_skip. exact Ha.
    - intros i l c Hs Hl H. rewrite expand_skip_S in H. rewrite search_skip in H.
      destruct (first_op op_skip l) as [lhs [tail|]] eqn:Hf.
      + apply (first_op_some op_skip eq_refl skip_pat) in Hf. destruct Hf as [-> Hc].
        apply clear_sub_shr in Hs. destruct Hs as [Hs1 Hs2]. apply clear_sub_shr in Hs2. destruct Hs2 as [_ Hs2].
        apply clear_sub_alt in Hl. destruct Hl as [Hl1 Hl2]. apply clear_sub_alt in Hl2. destruct Hl2 as [_ Hl2].
        destruct (expand_term rc (expand_expr rc fuel i) i lhs) as [ca|] eqn:Ea; [|discriminate].
        destruct (expand_skip rc fuel 0 tail) as [cb|] eqn:Eb; [|discriminate]. inversion H; subst.
        destruct (sound_term _ _ Hs1 Hl1 Hc (IHe i) Ea) as [a [Ha ->]]. destruct (IHs _ _ _ Hs2 Hl2 Eb) as [b [Hb ->]].
        exists (ESkip a b). split; [|reflexivity]. apply g_skip_skip; assumption.
      + pose proof (first_op_none op_skip eq_refl _ Hf) as ->.
        destruct (sound_term _ _ Hs Hl Hf (IHe i) H) as [a [Ha ->]]. exists a. split; [|reflexivity]. apply g_skip_term. exact Ha.
  Qed.

  Lemma sound_block fuel : forall i ts c, expand_block rc fuel i ts = Some c ->
    (ts = [] /\ c = CInput i) \/ exists b, g_block rc plain True ts b /\ c = emit_block i b.
  Proof.
    induction fuel as [|fuel IH]; intros i ts c H; [discriminate|]. cbn [expand_block] in H.
    destruct ts as [|t0 ts0]; [left; inversion H; auto|]. right. remember (t0 :: ts0) as ts eqn:Hts.
    assert (Hbody : forall b body, statement_head rc ts = (b, body) ->
      (b = BUnder /\ body = ts) \/
      (exists v p, ts = Let :: v /\ b = BPat p /\ let_pat rc v = Some (p, body)) \/
      (exists v x ty, ts = Let :: v /\ b = BTyped x ty /\ let_typed rc v = Some (x, ty, body))).
    { intros b body Hh. unfold statement_head in Hh.
      assert (Hdef : forall v, ts = Let :: v ->
        match let_typed rc v with Some (n, ty, t :: rest) => (BTyped n ty, t :: rest) | _ => (BUnder, ts) end = (b, body) ->
        b = BUnder /\ body = ts \/ (exists v' x ty, ts = Let :: v' /\ b = BTyped x ty /\ let_typed rc v' = Some (x, ty, body))).
      { intros v Hv Hd. destruct (let_typed rc v) as [[[x ty] [|t rest]]|] eqn:Hl; inversion Hd; subst b body; auto.
        right. exists v, x, ty. auto. }
      destruct ts as [|t v]; [inversion Hh; auto|]. destruct t; try (inversion Hh; auto; fail).
      destruct (let_pat rc v) as [[p [|t rest]]|] eqn:Hp.
      - destruct (Hdef _ eq_refl Hh); auto.
      - inversion Hh; subst. right. left. exists v, p. auto.
      - destruct (Hdef _ eq_refl Hh); auto. }
    destruct (statement_head rc ts) as [b body] eqn:Hh. specialize (Hbody _ _ eq_refl).
    assert (H' : match search op_semi statement_rules body with
            | Some (exp, tail) => expand_bind rc fuel (expand_block rc fuel 0) i b exp (match tail with Some t => t | None => [] end)
            | None => None
            end = Some c) by (destruct ts; [discriminate Hts | exact H]). clear H. rename H' into H.
    rewrite search_semi in H. destruct (first_op op_semi body) as [exp tail] eqn:Hf.
    assert (Hb : (tail = None /\ body = exp) \/ (exists r, tail = Some r /\ body = exp ++ Semi :: r)).
    { destruct tail as [r|].
      - apply (first_op_some op_semi eq_refl semi_pat) in Hf. destruct Hf as [Hf _]. right. exists r. auto.
      - left. apply (first_op_none op_semi eq_refl) in Hf. auto. }
    unfold expand_bind in H. destruct exp as [|e0 exp0]; [discriminate|]. remember (e0 :: exp0) as exp eqn:Hexp.
    assert (Hcases : (match tail with Some t => t | None => [] end = [] /\ b = BUnder /\ expand_expr rc fuel i exp = Some c) \/
      (exists e k r, tail = Some r /\ r <> [] /\ expand_expr rc fuel i exp = Some e /\ expand_block rc fuel 0 r = Some k /\ c = CBind e b k)).
    { destruct tail as [[|t r]|].
      - left. destruct b; try discriminate. auto.
      - right. assert (H' : match expand_expr rc fuel i exp with
                 | Some e => match expand_block rc fuel 0 (t :: r) with Some k => Some (CBind e b k) | None => None end
                 | None => None end = Some c) by (destruct b; exact H).
        destruct (expand_expr rc fuel i exp) as [e|]; [|discriminate].
        destruct (expand_block rc fuel 0 (t :: r)) as [k|] eqn:Hk; [|discriminate]. inversion H'.
        exists e, k, (t :: r). repeat split; auto. discriminate.
      - left. destruct b; try discriminate. auto. }
    destruct (sound_expr fuel) as (HX & _ & _).
    destruct Hcases as [(Htl & -> & He)|(ce & ck & r & -> & Hr & He & Hk & ->)].
    - destruct (HX _ _ _ He) as [a [Ha ->]]. exists (BLast a). split; [|reflexivity].
      destruct Hbody as [[_ ->]|[(v & p & _ & E & _)|(v & x & ty & _ & E & _)]]; try discriminate E.
      destruct Hb as [[_ ->]|(r & -> & ->)]; [apply g_last; exact Ha|]. cbn in Htl. subst r. apply g_last_semi; auto.
    - destruct (HX _ _ _ He) as [a [Ha ->]].
      destruct (IH _ _ _ Hk) as [[E _]|[bk [Hbk ->]]]; [congruence|].
      destruct Hb as [[E _]|(r' & E & Hb)]; [discriminate|]. inversion E; subst r'.
      destruct Hbody as [[-> ->]|[(v & p & -> & -> & Hl)|(v & x & ty & -> & -> & Hl)]].
      + exists (BDo a bk). split; [|reflexivity]. rewrite Hb. apply g_do; assumption.
      + exists (BLet (BPat p) a bk). split; [|reflexivity]. rewrite Hb in Hl. eapply g_let_pat; eassumption.
      + exists (BLet (BTyped x ty) a bk). split; [|reflexivity]. rewrite Hb in Hl. eapply g_let_typed; eassumption.
  Qed.
End Sound.

(** * The code does what the phrase means *)
Section Run.
  Context {I V E : Type}.
  Variable m : @meaning I V E.

  Lemma map_err_id (r : pres I V E) : map_err (fun v => v) r = r.
  Proof. destruct r; reflexivity. Qed.

  Lemma emit_runs e : forall rho i ins k, nth_error ins k = Some i -> runs m e rho i (eval m (emit k e) rho ins).
  Proof.
    induction e as [a IHa b IHb|a IHa b IHb|a IHa b IHb|x|t u x|x|t u x|s x|f ps]; intros rho i ins k Hk; cbn [emit eval];
      try (unfold with_input; rewrite Hk); try solve [constructor].
    - specialize (IHa rho i ins k Hk). destruct (eval m (emit k a) rho ins) as [j v|s x|n| |] eqn:Ea; cbn [bind];
        try (apply r_then_fail; [exact IHa | intros ? ?; discriminate]).
      rewrite map_err_id. eapply r_then; [exact IHa|]. cbn [bound]. apply IHb. reflexivity.
    - specialize (IHa rho i (i :: ins) 0 eq_refl). specialize (IHb rho i (i :: ins) 0 eq_refl).
      unfold or_. destruct (eval m (emit 0 a) rho (i :: ins)) as [j v|s x|n| |] eqn:Ea.
      + apply r_alt. exact IHa.
      + eapply r_alt_error; eassumption.
      + destruct (last i) eqn:El; [eapply r_alt_end | eapply r_alt_more]; eassumption.
      + apply r_alt_panic. exact IHa.
      + apply r_alt_fuel. exact IHa.
    - specialize (IHa rho i ins k Hk). destruct (eval m (emit k a) rho ins) as [j v|s x|n| |] eqn:Ea; cbn [bind];
        try (apply r_skip_fail_l; [exact IHa | intros ? ?; discriminate]).
      rewrite map_err_id. specialize (IHb rho j (j :: ins) 0 eq_refl).
      destruct (eval m (emit 0 b) rho (j :: ins)) as [j' w|s x|n| |]; cbn [map];
        try (eapply r_skip_fail_r; [exact IHa | exact IHb | intros ? ?; discriminate]).
      eapply r_skip; eassumption.
  Qed.

  Lemma emit_block_runs b : forall rc leaf trailing ts rho i ins k,
    g_block rc leaf trailing ts b -> nth_error ins k = Some i ->
    runs_block m b rho i (eval m (emit_block k b) rho ins).
  Proof.
    induction b as [e|e b IH|v e b IH]; intros rc leaf trailing ts rho i ins k Hg Hk; cbn [emit_block eval].
    - apply rb_last. apply emit_runs. exact Hk.
    - pose proof (emit_runs e rho ins k Hk) as He. inversion Hg; subst.
      destruct (eval m (emit k e) rho ins) as [j w|s x|n| |]; cbn [bind];
        try (apply rb_do_fail; [exact He | intros ? ?; discriminate]).
      rewrite map_err_id. eapply rb_do; [exact He|]. cbn [bound]. eapply IH; [eassumption | reflexivity].
    - pose proof (emit_runs e rho ins k Hk) as He.
      assert (Hg' : exists ts', g_block rc leaf trailing ts' b) by (inversion Hg; subst; eauto).
      assert (Hv : forall w, bound v w rho = (v, w) :: rho) by (inversion Hg; subst; reflexivity).
      destruct Hg' as [ts' Hg'].
      destruct (eval m (emit k e) rho ins) as [j w|s x|n| |]; cbn [bind];
        try (apply rb_let_fail; [exact He | intros ? ?; discriminate]).
      rewrite map_err_id. eapply rb_let; [exact He|]. rewrite Hv. eapply IH; [exact Hg' | reflexivity].
  Qed.

  Lemma runs_det e : forall rho i r r', runs m e rho i r -> runs m e rho i r' -> r = r'.
  Proof.
    induction e as [a IHa b IHb|a IHa b IHb|a IHa b IHb|x|t u x|x|t u x|s x|f ps]; intros rho i r r' H1 H2;
      inversion H1; subst; inversion H2; subst; try reflexivity;
      repeat match goal with
      | Ha : runs m a ?rho ?i ?x, Hb : runs m a ?rho ?i ?y |- _ =>
          let E := fresh "E" in pose proof (IHa _ _ _ _ Ha Hb) as E; clear Hb; first [discriminate E | injection E; intros; subst | subst]
      end;
      repeat match goal with
      | Ha : runs m b ?rho ?i ?x, Hb : runs m b ?rho ?i ?y |- _ =>
          let E := fresh "E" in pose proof (IHb _ _ _ _ Ha Hb) as E; clear Hb; first [discriminate E | injection E; intros; subst | subst]
      end;
      try reflexivity; try congruence;
      try (match goal with Hf : failure (Data ?i ?v) |- _ => exfalso; exact (Hf i v eq_refl) end).
  Qed.

  Lemma runs_block_det b : forall rho i r r', runs_block m b rho i r -> runs_block m b rho i r' -> r = r'.
  Proof.
    induction b as [e|e b IH|v e b IH]; intros rho i r r' H1 H2; inversion H1; subst; inversion H2; subst;
      repeat match goal with
      | Ha : runs m e ?rho ?i ?x, Hb : runs m e ?rho ?i ?y |- _ =>
          let E := fresh "E" in pose proof (runs_det Ha Hb) as E; clear Hb; first [discriminate E | injection E; intros; subst | subst]
      end; try reflexivity; eauto;
      try (match goal with Hf : failure (Data ?i ?v) |- _ => exfalso; exact (Hf i v eq_refl) end).
  Qed.
End Run.

(** * Different phrases have different code *)
Lemma emit_inj a : forall b i, emit i a = emit i b -> a = b.
Proof.
  induction a as [a IHa a' IHa'|a IHa a' IHa'|a IHa a' IHa'|x|t u x|x|t u x|s x|f ps]; intros b i H; destruct b; cbn [emit] in H;
    inversion H; subst; f_equal; eauto.
Qed.

(** * A sequence of tokens is derived in one way *)
Section Unique.
  Variable rc : rustc.
  Hypothesis Hrc : lawful rc.

  Lemma g_expr_unique l a b : g_expr rc plain l a -> g_expr rc plain l b -> a = b.
  Proof.
    intros Ha Hb. destruct (complete_expr Hrc) as [HX _].
    pose proof (HX _ _ Ha _ 0 (Nat.le_refl _)) as H1. rewrite (HX _ _ Hb _ 0 (Nat.le_refl _)) in H1.
    symmetry. apply (@emit_inj b a 0). congruence.
  Qed.

  Lemma split_unique l r l' r' : clear op_semi l -> clear op_semi l' -> l ++ Semi :: r = l' ++ Semi :: r' -> l = l' /\ r = r'.
  Proof.
    intros H1 H2 H. pose proof (found_semi r H1) as F1. rewrite H in F1. rewrite (found_semi r' H2) in F1.
    inversion F1. auto.
  Qed.
  Lemma split_not l r l' : clear op_semi l -> clear op_semi l' -> l' = l ++ Semi :: r -> False.
  Proof. intros H1 H2 ->. unfold clear in H2. rewrite (found_semi r H1) in H2. discriminate. Qed.

  Lemma not_let leaf l a v r : g_expr rc leaf l a -> l ++ r = Let :: v -> False.
  Proof.
    intros H E. destruct (proj1 (g_expr_nonempty rc leaf) _ _ H) as [H1 H2]. destruct l; [congruence|].
    cbn in *. inversion E; subst. congruence.
  Qed.

  Lemma g_block_unique trailing ts b : g_block rc plain trailing ts b ->
    forall b', g_block rc plain trailing ts b' -> b = b'.
  Proof.
    induction 1 as [l e He|l e Htr He|l e r k He Hk IH|v p l e r k Hv He Hk IH|v x ty l e r k Hv He Hk IH];
      intros b' H'; inversion H' as [l' e' He' Ets|l' e' Htr' He' Ets|l' e' r' k' He' Hk' Ets
        |v' p' l' e' r' k' Hv' He' Hk' Ets|v' x' ty' l' e' r' k' Hv' He' Hk' Ets]; subst;
      try (pose proof (g_expr_clear He) as Hc); try (pose proof (g_expr_clear He') as Hc');
      try (exfalso; eapply (@not_let _ _ _ _ [] He); rewrite app_nil_r; reflexivity);
      try (exfalso; eapply (@not_let _ _ _ _ _ He); symmetry; eassumption);
      try (exfalso; eapply (@not_let _ _ _ _ _ He); eassumption);
      try (exfalso; eapply (@not_let _ _ _ _ [] He'); rewrite app_nil_r; reflexivity);
      try (exfalso; eapply (@not_let _ _ _ _ _ He'); symmetry; eassumption);
      try (exfalso; eapply (@not_let _ _ _ _ _ He'); eassumption);
      try (exfalso; eapply split_not; [exact Hc' | exact Hc | reflexivity]);
      try (exfalso; eapply split_not; [exact Hc | exact Hc' | reflexivity]);
      try (exfalso; eapply split_not; [exact Hc' | exact Hc | eassumption]);
      try (exfalso; eapply split_not; [exact Hc | exact Hc' | eassumption]).
    - f_equal. eapply g_expr_unique; eassumption.
    - apply split_unique in Ets; auto. destruct Ets as [-> _]. f_equal. eapply g_expr_unique; eassumption.
    - apply split_unique in Ets; auto. destruct Ets as [_ ->]. exfalso. apply g_block_nonempty in Hk'. congruence.
    - apply split_unique in Ets; auto. destruct Ets as [_ <-]. exfalso. apply g_block_nonempty in Hk. congruence.
    - apply split_unique in Ets; auto. destruct Ets as [-> ->]. f_equal; [eapply g_expr_unique; eassumption | apply IH; exact Hk'].
    - rewrite Hv in Hv'. inversion Hv'; subst. apply split_unique in H1; auto. destruct H1 as [<- <-].
      f_equal; [eapply g_expr_unique; eassumption | apply IH; exact Hk'].
    - rewrite (law_let Hrc v) in Hv' by congruence. discriminate.
    - rewrite (law_let Hrc v) in Hv by congruence. discriminate.
    - rewrite Hv in Hv'. inversion Hv'; subst. apply split_unique in H2; auto. destruct H2 as [<- <-].
      f_equal; [eapply g_expr_unique; eassumption | apply IH; exact Hk'].
  Qed.
End Unique.
