(** Property C40: [parse!] means what its grammar says. *)
From Coq Require Import List Bool Arith Lia.
From Verif Require Import Base Combinators Macro SpecMacro MacroProofs.
Import ListNotations.

Set Implicit Arguments.

(** * A rustc to try things with *)

(** Expressions: one token, or a shift of two; types: one token, or [a >> b] in angle brackets; patterns and parameters: one token. *)
Definition atom (t : tok) : bool := match t with Ident _ | Other _ => true | _ => false end.
Definition toy : rustc := {|
  is_expr := fun ts => match ts with [t] => atom t | [t; Shr; u] => atom t && atom u | _ => false end;
  typed := fun ts => match ts with [t; Comma; u; Colon; e] => if atom t && atom u && atom e then Some ([t], [u], [e]) else None | _ => None end;
  args := fun ts => match ts with [] => Some [] | [t] => if atom t then Some [[t]] else None | _ => None end;
  let_pat := fun ts => match ts with t :: Eq :: rest => if atom t then Some ([t], rest) else None | _ => None end;
  let_typed := fun ts =>
    match ts with Ident x :: Colon :: t :: Eq :: rest => if atom t then Some (x, [t], rest) else None | _ => None end |}.

Lemma toy_lawful : lawful toy.
Proof.
  split; cbn.
  - reflexivity.
  - intros [|t [|[] v]] p rest; try discriminate. destruct (atom t); intros H; inversion H; reflexivity.
  - intros [|[] [|[] [|t [|[] v]]]] x ty rest; try discriminate. destruct (atom t); intros H; inversion H; reflexivity.
  - intros [|t [|[] v]]; try congruence. destruct (atom t) eqn:Ht; [|congruence]. destruct t; try discriminate; reflexivity.
  - intros [|t [|[] [|u [|[] [|e [|]]]]]] t' u' e'; try discriminate.
    destruct (atom t), (atom u), (atom e); intros H; inversion H; reflexivity.
  - intros [|t [|[] [|u [|]]]]; try discriminate; cbn; intros H.
    + intros [E|[]]; subst; discriminate.
    + apply andb_prop in H. destruct H. intros [E|[E|[E|[]]]]; subst; discriminate.
  - intros [|t [|[] [|u [|[] [|e [|]]]]]] x; try discriminate.
    destruct (atom t) eqn:Ht; [|discriminate]. destruct (atom u) eqn:Hu; [|discriminate]. destruct (atom e) eqn:He; [|discriminate].
    intros _ [E|[E|[E|[E|[E|[]]]]]]; subst; discriminate.
  - intros [|[] [|u [|]]]; reflexivity.
Qed.

(** [let x = f(); let y: T = g(x) <* h() <|> (p() >> q()); k(); ret y >> ret x]: 40 tokens. *)
Definition call (f : nat) (l : list tok) : list tok := [Ident f; Group l].
Definition program : list tok :=
  Let :: Ident 10 :: Eq :: call 20 [] ++ Semi ::
  Let :: Ident 11 :: Colon :: Other 5 :: Eq :: call 21 [Ident 10] ++ [Lt; Star] ++ call 22 [] ++ [Lt; Bar; Gt] ++
    [Group (call 23 [] ++ [Shr] ++ call 24 [])] ++ Semi ::
  call 25 [] ++ Semi :: [Ident kw_ret; Ident 11; Shr; Ident kw_ret; Ident 10].
Definition program_block : block :=
  BLet (BPat [Ident 10]) (ENamed 20 [])
  (BLet (BTyped 11 [Other 5])
     (EAlt (ESkip (ENamed 21 [[Ident 10]]) (ENamed 22 [])) (EThen (ENamed 23 []) (ENamed 24 [])))
  (BDo (ENamed 25 [])
  (BLast (EThen (ERet [Ident 11]) (ERet [Ident 10]))))).

Lemma atom_plain t : atom t = true -> plain [t].
Proof. intros H. apply plain_clear. destruct t; try discriminate; repeat split; vm_compute; reflexivity. Qed.

Lemma named_alt leaf f l ps : f <> kw_ret -> f <> kw_err -> args toy l = Some ps -> g_alt toy leaf (call f l) (ENamed f ps).
Proof. intros. apply g_alt_skip, g_skip_term, g_named; assumption. Qed.

Lemma program_derived trailing : g_block toy plain trailing program program_block.
Proof.
  eapply (@g_let_pat toy plain trailing _ [Ident 10] (call 20 []) (ENamed 20 [])); [reflexivity| |].
  { apply g_expr_alt, named_alt; [discriminate | discriminate | reflexivity]. }
  eapply (@g_let_typed toy plain trailing _ 11 [Other 5]
    (call 21 [Ident 10] ++ [Lt; Star] ++ call 22 [] ++ [Lt; Bar; Gt] ++ [Group (call 23 [] ++ [Shr] ++ call 24 [])])); [reflexivity| |].
  { apply g_expr_alt. apply (@g_alt_alt toy plain (call 21 [Ident 10] ++ Lt :: Star :: call 22 [])).
    - apply g_skip_skip; [apply g_named; [discriminate | discriminate | reflexivity]|].
      apply g_skip_term, g_named; [discriminate | discriminate | reflexivity].
    - apply g_alt_skip, g_skip_term, g_paren. apply g_expr_then; [apply named_alt; [discriminate | discriminate | reflexivity]|].
      apply g_expr_alt, named_alt; [discriminate | discriminate | reflexivity]. }
  apply (@g_do toy plain trailing (call 25 [])).
  { apply g_expr_alt, named_alt; [discriminate | discriminate | reflexivity]. }
  apply g_last. apply (@g_expr_then toy plain [Ident kw_ret; Ident 11]).
  - apply g_alt_skip, g_skip_term, g_ret; [apply atom_plain|]; reflexivity.
  - apply g_expr_alt, g_alt_skip, g_skip_term, g_ret; [apply atom_plain|]; reflexivity.
Qed.

(** * The theorems *)

(** The rules, unrolled for a few tokens, find the first operator however far away it is, and the end if there is none. *)
Theorem C40_first_operator :
  (forall l r, ~ In Shr l -> search op_shr expr_rules (l ++ Shr :: r) = Some (l, Some r)) /\
  (forall l, ~ In Shr l -> search op_shr expr_rules l = Some (l, None)) /\
  (forall l r, (forall a b, l <> a ++ [Lt; Bar; Gt] ++ b) -> search op_alt alt_rules (l ++ [Lt; Bar; Gt] ++ r) = Some (l, Some r)) /\
  (forall l, (forall a b, l <> a ++ [Lt; Bar; Gt] ++ b) -> search op_alt alt_rules l = Some (l, None)) /\
  (forall l r, (forall a b, l <> a ++ [Lt; Star] ++ b) -> search op_skip skip_rules (l ++ [Lt; Star] ++ r) = Some (l, Some r)) /\
  (forall l, (forall a b, l <> a ++ [Lt; Star] ++ b) -> search op_skip skip_rules l = Some (l, None)) /\
  (forall l r, ~ In Semi l -> search op_semi statement_rules (l ++ Semi :: r) = Some (l, Some r)) /\
  (forall l, ~ In Semi l -> search op_semi statement_rules l = Some (l, None)).
Proof.
  assert (Hin : forall (x : tok) l, ~ In x l -> forall a b, l <> a ++ [x] ++ b).
  { intros x l H a b ->. apply H. apply in_or_app. right. left. reflexivity. }
  repeat split; intros.
  - rewrite search_shr. f_equal. apply found_shr. apply (clear_free op_shr eq_refl shr_pat). auto.
  - rewrite search_shr. f_equal. apply (clear_free op_shr eq_refl shr_pat). auto.
  - rewrite search_alt. f_equal. apply found_alt. apply (clear_free op_alt eq_refl alt_pat). auto.
  - rewrite search_alt. f_equal. apply (clear_free op_alt eq_refl alt_pat). auto.
  - rewrite search_skip. f_equal. apply found_skip. apply (clear_free op_skip eq_refl skip_pat). auto.
  - rewrite search_skip. f_equal. apply (clear_free op_skip eq_refl skip_pat). auto.
  - rewrite search_semi. f_equal. apply found_semi. apply (clear_free op_semi eq_refl semi_pat). auto.
  - rewrite search_semi. f_equal. apply (clear_free op_semi eq_refl semi_pat). auto.
Qed.
Print Assumptions C40_first_operator.

Example C40_first_operator_example : search op_semi statement_rules (repeat (Ident 3) 40 ++ [Semi; Ident 4; Semi]) =
  Some (repeat (Ident 3) 40, Some [Ident 4; Semi]).
Proof. vm_compute. reflexivity. Qed.

(** With nothing but the input, with or without a [;], it is the input. *)
Theorem C40_input_only : forall rc, expand_parse rc None = Some (CInput 0) /\ expand_parse rc (Some []) = Some (CInput 0) /\ expand_parser rc [] = Some (CInput 0).
Proof. intros rc. repeat split; reflexivity. Qed.
Print Assumptions C40_input_only.

(** What the macro accepts is what the grammar derives, where the Rust code in a term contains no operator outside of parentheses, and where a
    [;] may end the block. *)
(** Missing: the grammar to the letter, which the macro does not implement ([C40_outside_refuted], [C40_shift_refuted]). *)
Theorem C40_grammar_partial rc (Hrc : lawful rc) ts (Hne : ts <> []) :
  (exists c, expand_parse rc (Some ts) = Some c) <-> (exists b, g_block rc plain True ts b).
Proof.
  split.
  - intros [c Hc]. destruct (sound_block Hrc _ _ _ Hc) as [[E _]|[b [Hb _]]]; [congruence | eauto].
  - intros [b Hb]. exists (emit_block 0 b). apply (complete_block Hrc Hb). lia.
Qed.
Print Assumptions C40_grammar_partial.

(** The grammar derives a sequence of tokens in one way, and the code does what the derived phrase means: precedence and associativity of the
    operators, scope of the variables. *)
Theorem C40_meaning rc (Hrc : lawful rc) ts (Hne : ts <> []) c (Hc : expand_parse rc (Some ts) = Some c) :
  exists b, g_block rc plain True ts b /\ (forall b', g_block rc plain True ts b' -> b' = b) /\
    forall (I V E : Type) (m : @meaning I V E) rho i, runs_block m b rho i (eval m c rho [i]).
Proof.
  destruct (sound_block Hrc _ _ _ Hc) as [[E _]|[b [Hb ->]]]; [congruence|]. exists b. repeat split.
  - exact Hb.
  - intros b' Hb'. exact (g_block_unique Hrc Hb' Hb).
  - intros I V E m rho i. eapply emit_block_runs; [exact Hb | reflexivity].
Qed.
Print Assumptions C40_meaning.

(** A phrase means one thing. *)
Theorem C40_one_result (I V E : Type) (m : @meaning I V E) b rho i r r' :
  runs_block m b rho i r -> runs_block m b rho i r' -> r = r'.
Proof. apply runs_block_det. Qed.
Print Assumptions C40_one_result.

(** So whatever the grammar derives is accepted and runs as it says. *)
Theorem C40_derived rc (Hrc : lawful rc) ts b (Hb : g_block rc plain False ts b) :
  exists c, expand_parse rc (Some ts) = Some c /\ expand_parser rc ts = Some c /\
    forall (I V E : Type) (m : @meaning I V E) rho i r, runs_block m b rho i r <-> eval m c rho [i] = r.
Proof.
  exists (emit_block 0 b).
  assert (Hx : expand_parse rc (Some ts) = Some (emit_block 0 b)) by (apply (complete_block Hrc Hb); lia).
  split; [exact Hx | split; [exact Hx|]]. intros I V E m rho i r.
  assert (Hr : runs_block m b rho i (eval m (emit_block 0 b) rho [i])) by (eapply emit_block_runs; [exact Hb | reflexivity]).
  split; [intros H; exact (runs_block_det Hr H) | intros <-; exact Hr].
Qed.
Print Assumptions C40_derived.

Example C40_derived_example : lawful toy /\ g_block toy plain False program program_block /\ g_block toy plain True program program_block /\
  expand_parse toy (Some program) = Some
    (CBind (CCall 20 0 []) (BPat [Ident 10])
    (CBind (COr 0 (CSkip (CCall 21 0 [[Ident 10]]) (CCall 22 0 [])) (CBind (CCall 23 0 []) BUnder (CCall 24 0 []))) (BTyped 11 [Other 5])
    (CBind (CCall 25 0 []) BUnder
    (CBind (CRet 0 [Ident 11]) BUnder (CRet 0 [Ident 10]))))).
Proof.
  split; [apply toy_lawful | split; [apply program_derived | split; [apply program_derived|]]]. vm_compute. reflexivity.
Qed.

(** [>>] binds weaker than [<|>], which binds weaker than [<*]; all three associate to the right.  In Rust: [a <* b <|> c >> d],
    [a >> b <|> c <* d], [a <* b <* c], [a <|> b <|> c] and [a >> b >> c]. *)
Theorem C40_precedence rc (Hrc : lawful rc) (a b c d : nat) la lb lc ld pa pb pc pd
  (Ha : args rc la = Some pa) (Hb : args rc lb = Some pb) (Hc : args rc lc = Some pc) (Hd : args rc ld = Some pd)
  (Hka : 1 < a) (Hkb : 1 < b) (Hkc : 1 < c) (Hkd : 1 < d) :
  let A := [Ident a; Group la] in let B := [Ident b; Group lb] in let C := [Ident c; Group lc] in let D := [Ident d; Group ld] in
  let cA := CCall a 0 pa in let cB := CCall b 0 pb in let cC := CCall c 0 pc in let cD := CCall d 0 pd in
  expand_parse rc (Some (A ++ Lt :: Star :: B ++ Lt :: Bar :: Gt :: C ++ Shr :: D)) = Some (CBind (COr 0 (CSkip cA cB) cC) BUnder cD) /\
  expand_parse rc (Some (A ++ Shr :: B ++ Lt :: Bar :: Gt :: C ++ Lt :: Star :: D)) = Some (CBind cA BUnder (COr 0 cB (CSkip cC cD))) /\
  expand_parse rc (Some (A ++ Lt :: Star :: B ++ Lt :: Star :: C)) = Some (CSkip cA (CSkip cB cC)) /\
  expand_parse rc (Some (A ++ Lt :: Bar :: Gt :: B ++ Lt :: Bar :: Gt :: C)) = Some (COr 0 cA (COr 0 cB cC)) /\
  expand_parse rc (Some (A ++ Shr :: B ++ Shr :: C)) = Some (CBind cA BUnder (CBind cB BUnder cC)).
Proof.
  assert (Hn : forall f l ps, args rc l = Some ps -> 1 < f -> g_term rc plain [Ident f; Group l] (ENamed f ps)).
  { intros f l ps H1 H2. apply g_named; [unfold kw_ret; lia | unfold kw_err; lia | exact H1]. }
  assert (Hs : forall f l ps, args rc l = Some ps -> 1 < f -> g_skip rc plain [Ident f; Group l] (ENamed f ps)).
  { intros. apply g_skip_term. auto. }
  assert (Hal : forall f l ps, args rc l = Some ps -> 1 < f -> g_alt rc plain [Ident f; Group l] (ENamed f ps)).
  { intros. apply g_alt_skip. auto. }
  assert (He : forall f l ps, args rc l = Some ps -> 1 < f -> g_expr rc plain [Ident f; Group l] (ENamed f ps)).
  { intros. apply g_expr_alt. auto. }
  assert (HX : forall l x, g_expr rc plain l x -> expand_parse rc (Some l) = Some (emit 0 x)).
  { intros l x Hx. exact (complete_block Hrc (g_last False Hx) 0 (Nat.le_refl _)). }
  cbv zeta. repeat split.
  - apply (HX _ (EThen (EAlt (ESkip (ENamed a pa) (ENamed b pb)) (ENamed c pc)) (ENamed d pd))).
    apply (@g_expr_then rc plain ([Ident a; Group la] ++ Lt :: Star :: [Ident b; Group lb] ++ Lt :: Bar :: Gt :: [Ident c; Group lc]));
      [|auto]. apply (@g_alt_alt rc plain ([Ident a; Group la] ++ Lt :: Star :: [Ident b; Group lb])); [|auto].
    apply (@g_skip_skip rc plain [Ident a; Group la]); auto.
  - apply (HX _ (EThen (ENamed a pa) (EAlt (ENamed b pb) (ESkip (ENamed c pc) (ENamed d pd))))).
    apply (@g_expr_then rc plain [Ident a; Group la]); [auto|]. apply g_expr_alt.
    apply (@g_alt_alt rc plain [Ident b; Group lb]); [auto|]. apply g_alt_skip. apply (@g_skip_skip rc plain [Ident c; Group lc]); auto.
  - apply (HX _ (ESkip (ENamed a pa) (ESkip (ENamed b pb) (ENamed c pc)))).
    apply g_expr_alt, g_alt_skip. apply (@g_skip_skip rc plain [Ident a; Group la]); [auto|].
    apply (@g_skip_skip rc plain [Ident b; Group lb]); auto.
  - apply (HX _ (EAlt (ENamed a pa) (EAlt (ENamed b pb) (ENamed c pc)))).
    apply g_expr_alt. apply (@g_alt_alt rc plain [Ident a; Group la]); [auto|]. apply (@g_alt_alt rc plain [Ident b; Group lb]); auto.
  - apply (HX _ (EThen (ENamed a pa) (EThen (ENamed b pb) (ENamed c pc)))).
    apply (@g_expr_then rc plain [Ident a; Group la]); [auto|]. apply (@g_expr_then rc plain [Ident b; Group lb]); auto.
Qed.
Print Assumptions C40_precedence.

Example C40_precedence_example : args toy [] = Some [] /\ args toy [Ident 7] = Some [[Ident 7]] /\ 1 < 20.
Proof. repeat split. lia. Qed.

(** A [let] at the end of a block is rejected. *)
Theorem C40_let_last rc (Hrc : lawful rc) leaf v p l e (Hv : let_pat rc v = Some (p, l)) (Hl : g_expr rc leaf l e) (Hs : ~ In Semi l) :
  expand_parse rc (Some (Let :: v)) = None /\ (forall b, ~ g_block rc plain True (Let :: v) b).
Proof.
  assert (Hno : forall b, ~ g_block rc plain True (Let :: v) b).
  { intros b Hb. inversion Hb as [l' e' He Ets|l' e' _ He Ets|l' e' r k He Hk Ets|v' p' l' e' r k Hv' He Hk Ets|v' x ty l' e' r k Hv' He Hk Ets]; subst.
    - destruct (proj1 (g_expr_nonempty rc plain) _ _ He) as [_ H]. apply H. reflexivity.
    - exact (@not_let _ _ _ _ _ _ He Ets).
    - exact (@not_let _ _ _ _ _ _ He Ets).
    - rewrite Hv in Hv'. inversion Hv'; subst. apply Hs. apply in_or_app. right. left. reflexivity.
    - rewrite (law_let Hrc v) in Hv' by congruence. discriminate. }
  split; [|exact Hno].
  destruct (expand_parse rc (Some (Let :: v))) as [c|] eqn:Hc; [|reflexivity]. exfalso.
  destruct (proj1 (C40_grammar_partial Hrc (ts := Let :: v) ltac:(discriminate)) (ex_intro _ c Hc)) as [b Hb]. exact (Hno b Hb).
Qed.
Print Assumptions C40_let_last.

Example C40_let_last_example : let_pat toy (Ident 10 :: Eq :: call 20 []) = Some ([Ident 10], call 20 []) /\
  g_expr toy plain (call 20 []) (ENamed 20 []) /\ ~ In Semi (call 20 []).
Proof.
  repeat split; [|cbn; intuition discriminate]. apply g_expr_alt, named_alt; [discriminate | discriminate | reflexivity].
Qed.

(** So is a [let] with a type, whatever follows its [=], and either form when nothing follows its [;]. *)
Theorem C40_let_typed_last rc (Hrc : lawful rc) v x ty l (Hv : let_typed rc v = Some (x, ty, l)) (Hs : ~ In Semi l) : expand_parse rc (Some (Let :: v)) = None.
Proof.
  destruct (expand_parse rc (Some (Let :: v))) as [c|] eqn:Hc; [|reflexivity]. exfalso.
  destruct (proj1 (C40_grammar_partial Hrc (ts := Let :: v) ltac:(discriminate)) (ex_intro _ c Hc)) as [b Hb].
  inversion Hb as [l' e' He Ets|l' e' _ He Ets|l' e' r k He Hk Ets|v' p' l' e' r k Hv' He Hk Ets|v' x' ty' l' e' r k Hv' He Hk Ets]; subst.
  - destruct (proj1 (g_expr_nonempty rc plain) _ _ He) as [_ H]. apply H. reflexivity.
  - exact (@not_let _ _ _ _ _ _ He Ets).
  - exact (@not_let _ _ _ _ _ _ He Ets).
  - rewrite (law_let Hrc v) in Hv by congruence. discriminate.
  - rewrite Hv in Hv'. inversion Hv'; subst. apply Hs. apply in_or_app. right. left. reflexivity.
Qed.
Theorem C40_let_semi_last rc (Hrc : lawful rc) v l (Hv : (exists p, let_pat rc v = Some (p, l ++ [Semi])) \/ (exists x ty, let_typed rc v = Some (x, ty, l ++ [Semi]))) (Hs : ~ In Semi l) :
  expand_parse rc (Some (Let :: v)) = None.
Proof.
  destruct (expand_parse rc (Some (Let :: v))) as [c|] eqn:Hc; [|reflexivity]. exfalso.
  destruct (proj1 (C40_grammar_partial Hrc (ts := Let :: v) ltac:(discriminate)) (ex_intro _ c Hc)) as [b Hb].
  assert (Hsplit : forall l' r, l ++ [Semi] = l' ++ Semi :: r -> r = []).
  { intros l' r E. destruct r as [|t r] using rev_ind; [reflexivity|]. exfalso. rewrite app_comm_cons, app_assoc in E. apply app_inj_tail in E.
    destruct E as [E _]. apply Hs. rewrite E. apply in_or_app. right. left. reflexivity. }
  inversion Hb as [l' e' He Ets|l' e' _ He Ets|l' e' r k He Hk Ets|v' p' l' e' r k Hv' He Hk Ets|v' x' ty' l' e' r k Hv' He Hk Ets]; subst.
  - destruct (proj1 (g_expr_nonempty rc plain) _ _ He) as [_ H]. apply H. reflexivity.
  - exact (@not_let _ _ _ _ _ _ He Ets).
  - exact (@not_let _ _ _ _ _ _ He Ets).
  - destruct Hv as [[p Hv]|(x & ty & Hv)]; [|rewrite (law_let Hrc v) in Hv by congruence; discriminate].
    rewrite Hv in Hv'. inversion Hv'; subst. rewrite (Hsplit l' r) in Hk by assumption. exact (g_block_nonempty Hk eq_refl).
  - destruct Hv as [[p Hv]|(x & ty & Hv)]; [rewrite (law_let Hrc v) in Hv' by congruence; discriminate|].
    rewrite Hv in Hv'. inversion Hv'; subst. rewrite (Hsplit l' r) in Hk by assumption. exact (g_block_nonempty Hk eq_refl).
Qed.
Print Assumptions C40_let_typed_last.
Print Assumptions C40_let_semi_last.
Example C40_let_typed_last_example : let_typed toy (Ident 10 :: Colon :: Ident 11 :: Eq :: call 20 []) = Some (10, [Ident 11], call 20 []) /\ ~ In Semi (call 20 []) /\ let_pat toy (Ident 10 :: Eq :: call 20 [] ++ [Semi]) = Some ([Ident 10], call 20 [] ++ [Semi]).
Proof. repeat split. cbn. intuition discriminate. Qed.

(** tests/compile-fail/macros_tailing_bind1.rs and 2.rs ([let x = s -> s.ret(3)], the closure's body as one opaque token), 3.rs and 4.rs ([let x = f()]). *)
Example C40_compile_fail : expand_parse toy (Some [Let; Ident 10; Eq; Ident 30; Arrow; Other 3]) = None /\ expand_parse toy (Some (Let :: Ident 10 :: Eq :: call 20 [])) = None /\
  (exists c, expand_parse toy (Some (Let :: Ident 10 :: Eq :: call 20 [] ++ Semi :: call 20 [])) = Some c).
Proof. repeat split; try reflexivity. eexists. reflexivity. Qed.

(** The claim to the letter is false: [parse!{i; f();}] is accepted, though the grammar derives no [;] at the end of a block; so is the empty
    block. *)
Theorem C40_outside_refuted :
  exists rc ts, lawful rc /\ ts <> [] /\ (exists c, expand_parse rc (Some ts) = Some c) /\
    (forall b, ~ g_block rc (fun _ => True) False ts b) /\
    (exists c, expand_parse rc (Some []) = Some c) /\ (forall b, ~ g_block rc (fun _ => True) False [] b).
Proof.
  exists toy, (call 20 [] ++ [Semi]). split; [exact toy_lawful|]. split; [discriminate|].
  split; [eexists; vm_compute; reflexivity|]. split.
  - assert (Hshape : (forall l a, g_expr toy (fun _ => True) l a -> List.last l Let <> Semi /\ l <> []) /\
      (forall l a, g_alt toy (fun _ => True) l a -> List.last l Let <> Semi /\ l <> []) /\
      (forall l a, g_skip toy (fun _ => True) l a -> List.last l Let <> Semi /\ l <> []) /\
      (forall l a, g_term toy (fun _ => True) l a -> List.last l Let <> Semi /\ l <> [])).
    { assert (Hlast : forall l x r, List.last r Let <> Semi -> r <> [] -> List.last (l ++ x ++ r) Let <> Semi /\ l ++ x ++ r <> []).
      { intros l x r H1 H2. rewrite app_assoc. split.
        - destruct (exists_last H2) as [r' [y ->]]. rewrite app_assoc, last_last. rewrite last_last in H1. exact H1.
        - destruct r; [congruence|]. destruct (l ++ x); discriminate. }
      assert (Hlast' : forall x r, List.last r Let <> Semi -> List.last (x :: r) Let <> Semi \/ r = []).
      { intros x r H. destruct r; [auto | left; exact H]. }
      assert (Hexpr : forall e, is_expr toy e = true -> List.last e Let <> Semi /\ e <> []).
      { cbn. intros [|t [|[] [|u [|]]]]; try discriminate; cbn; intros H; (split; [|discriminate]); intros ->; try discriminate.
        apply andb_prop in H. destruct H. discriminate. }
      assert (Htyped : forall r x, typed toy r = Some x -> List.last r Let <> Semi /\ r <> []).
      { cbn. intros [|t [|[] [|u [|[] [|e [|]]]]]] x; try discriminate.
        intros H. split; [|discriminate]. cbn. intros ->. rewrite andb_false_r in H. discriminate. }
      apply (g_mind (fun l a _ => List.last l Let <> Semi /\ l <> []) (fun l a _ => List.last l Let <> Semi /\ l <> [])
        (fun l a _ => List.last l Let <> Semi /\ l <> []) (fun l a _ => List.last l Let <> Semi /\ l <> [])); auto.
      - intros l a r b _ _ _ [H1 H2]. exact (Hlast l [Shr] r H1 H2).
      - intros l a r b _ _ _ [H1 H2]. exact (Hlast l [Lt; Bar; Gt] r H1 H2).
      - intros l a r b _ _ _ [H1 H2]. exact (Hlast l [Lt; Star] r H1 H2).
      - intros r t u e _ H. apply Htyped in H. destruct H as [H1 H2]. exact (Hlast [] [Ident kw_ret; At] r H1 H2).
      - intros e _ H. apply Hexpr in H. destruct H as [H1 H2]. exact (Hlast [] [Ident kw_ret] e H1 H2).
      - intros r t u e _ H. apply Htyped in H. destruct H as [H1 H2]. exact (Hlast [] [Ident kw_err; At] r H1 H2).
      - intros e _ H. apply Hexpr in H. destruct H as [H1 H2]. exact (Hlast [] [Ident kw_err] e H1 H2).
      - intros. split; discriminate.
      - intros s e _ _ _ H. apply Hexpr in H. destruct H as [H1 H2]. exact (Hlast [] [Ident s; Arrow] e H1 H2).
      - intros. split; discriminate. }
    intros b Hb. cbn [call app] in Hb.
    inversion Hb as [l e He Ets|l e [] He Ets|l e r k He Hk Ets| |]; subst.
    + apply Hshape in He. destruct He as [He _]. apply He. reflexivity.
    + destruct l as [|t0 [|t1 [|t2 l]]]; try discriminate Ets.
      * inversion Ets; subst. apply g_block_nonempty in Hk. congruence.
      * inversion Ets. destruct l; discriminate.
  - split; [eexists; vm_compute; reflexivity|]. intros b Hb. apply g_block_nonempty in Hb. congruence.
Qed.
Print Assumptions C40_outside_refuted.

(** Nor is all that the grammar derives accepted: [parse!{i; ret a >> b}] with the Rust expression [a >> b], a shift, is rejected. *)
Theorem C40_shift_refuted :
  exists rc ts b, lawful rc /\ g_block rc (fun _ => True) False ts b /\ expand_parse rc (Some ts) = None.
Proof.
  exists toy, [Ident kw_ret; Ident 7; Shr; Ident 8], (BLast (ERet [Ident 7; Shr; Ident 8])). split; [exact toy_lawful|].
  split; [|vm_compute; reflexivity]. apply g_last, g_expr_alt, g_alt_skip, g_skip_term, g_ret; [exact Logic.I | reflexivity].
Qed.
Print Assumptions C40_shift_refuted.
