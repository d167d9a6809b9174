(** Proofs for C74: how often parsers written as grammars call user code. *)
From Coq Require Import List Bool Arith Lia.
From Verif Require Import Base Parsers Combinators SpecBase BaseProofs SpecIter SpecSafe Effects SpecEffects EffectsProofs EffectsIterProofs EffectsExprProofs
  SpecPeg Peg PegProofs PegTotal PegMeter.
Import ListNotations.

Set Implicit Arguments.

(** * The meter does not disturb *)

Section Undisturbed.
  Context {I : Type}.
  Variable v : bool.
  Variable eqb : I -> I -> bool.
  Variable g : nat -> peg I.
  Notation comp := (peg_parser v eqb g).
  Notation meter := (peg_meter v eqb g).

  Lemma meter_eq : forall fuel e n i, meter fuel e n i =
      match e with
      | Empty => (ret Nothing i, S n)
      | Sat f => let (r, n) := satisfy_w v (tick f) (S n) i in (map (@One I) r, n)
      | Lit w => let (r, n) := string_w v (tick (fun ab => negb (eqb (fst ab) (snd ab)))) w (S n) i in (map (@Span I) r, n)
      | Run f => let (r, n) := take_while_w (tick f) (S n) i in (map (@Span I) r, n)
      | Seq a b =>
          let (r, n) := meter fuel a (S n) i in
          bind_w (fun e n => (Some e, n)) r (fun t n i => let (r, n) := meter fuel b n i in (map (Both t) r, n)) n
      | Then a b => let (r, n) := meter fuel a (S n) i in then_w (fun e n => (Some e, n)) r (meter fuel b) n
      | Alt a b => or_w (meter fuel a) (meter fuel b) (S n) i
      | Opt a => option_w (meter fuel a) Nothing (S n) i
      | Ahead a => look_ahead_w (meter fuel a) (S n) i
      | Slice a => let (r, n) := matched_by_w (meter fuel a) (S n) i in (map (fun xt => Both (Span (fst xt)) (snd xt)) r, n)
      | Star a => let (r, n) := many_w fuel (vec_collector _) (meter fuel a) (S n) i in (map (@Many I) r, n)
      | Plus a => let (r, n) := many1_w fuel (vec_collector _) (meter fuel a) (S n) i in (map (@Many I) r, n)
      | Times k a => let (r, n) := count_w fuel (vec_collector _) k (meter fuel a) (S n) i in (map (@Many I) r, n)
      | Sep a b => let (r, n) := sep_by1_w fuel (vec_collector _) (fun e n => (Some e, n)) (meter fuel a) (meter fuel b) (S n) i in (map (@Many I) r, n)
      | Rule k => match fuel with 0 => (NoFuel, n) | S fuel => meter fuel (g k) (S n) i end
      end.
  Proof. intros fuel e n i. destruct fuel, e; reflexivity. Qed.

  Lemma tick_answers : forall A B (f : A -> B), answers (tick f) f.
  Proof. intros A B f a w. reflexivity. Qed.
  Lemma same_answers : answers (fun (e : error I) (n : nat) => (Some e, n)) (fun e => e).
  Proof. intros a w. reflexivity. Qed.
  Lemma fst_map : forall T U (h : T -> U) (x : pres I T (error I) * nat) y, fst x = y -> fst (let (r, n) := x in (map h r, n)) = map h y.
  Proof. intros T U h [r n] y <-. reflexivity. Qed.

  Lemma undisturbed : forall fuel e, parses_as (meter fuel e) (comp fuel e).
  Proof.
    induction fuel as [|fuel IHf]; intros e; induction e; intros n0 i; rewrite meter_eq, comp_eq; try reflexivity;
      try (apply fst_map; first [apply (satisfy_w_pure v), tick_answers|apply (string_w_pure v eqb), tick_answers|apply take_while_w_pure, tick_answers
        |apply matched_by_w_pure; assumption|apply (bmany_sim (sim_pure IHe))
        |apply (sep_by_sim _ _ (RFrom 1) same_answers IHe1 IHe2)]);
      try (apply or_w_pure; assumption); try (apply option_w_pure; assumption); try (apply look_ahead_w_pure; assumption);
      try (specialize (IHe1 (S n0) i); destruct (meter _ e1 (S n0) i) as [r n1]; cbn [fst] in IHe1; subst r; unfold then_w, then_;
           apply bind_w_pure; [apply same_answers|]; intros t n2 j; first [apply fst_map, IHe2|apply IHe2]).
    apply IHf.
  Qed.
End Undisturbed.

(** * What calls cost *)

Inductive answer (I T : Type) : Type :=
| Yes (t : T) (rest : list I)
| No
| Ask.
Arguments Yes {I T} t rest.
Arguments No {I T}.
Arguments Ask {I T}.

Definition amap {I T U} (f : T -> U) (r : answer I T) : answer I U := match r with Yes t s => Yes (f t) s | No => No | Ask => Ask end.

Section Costs.
  Context {I : Type}.
  Variable eqb : I -> I -> bool.
  Variable g : nat -> peg I.
  (** Whether no more input can come. *)
  Variable l : bool.
  Definition over_end {T} : answer I T := if l then No else Ask.

  (** [costs e s r c]: on [s] the expression [e] gets the answer [r], at most [c] calls being made. *)
  Inductive costs : peg I -> list I -> answer I (tree I) -> nat -> Prop :=
  | c_empty : forall s, costs Empty s (Yes Nothing s) 1
  | c_sat : forall f x s, f x = true -> costs (Sat f) (x :: s) (Yes (One x) s) 2
  | c_sat_not : forall f x s, f x = false -> costs (Sat f) (x :: s) No 2
  | c_sat_end : forall f, costs (Sat f) [] over_end 1
  | c_lit : forall w x s, same_items eqb w x -> costs (Lit w) (x ++ s) (Yes (Span x) s) (1 + length w)
  | c_lit_not : forall w s, (forall x y, s = x ++ y -> ~ same_items eqb w x) -> costs (Lit w) s No (1 + length w)
  | c_lit_ask : forall w s, (l = true -> forall x y, s = x ++ y -> ~ same_items eqb w x) -> costs (Lit w) s over_end 1
  | c_run : forall f x c s, Forall (fun a => f a = true) x -> f c = false -> costs (Run f) (x ++ c :: s) (Yes (Span x) (c :: s)) (2 + length x)
  | c_run_end : forall f x, Forall (fun a => f a = true) x -> costs (Run f) x (if l then Yes (Span x) [] else Ask) (1 + length x)
  | c_seq : forall a b s t s1 c1 r c2, costs a s (Yes t s1) c1 -> costs b s1 r c2 -> costs (Seq a b) s (amap (Both t) r) (1 + c1 + c2)
  | c_seq_no : forall a b s c, costs a s No c -> costs (Seq a b) s No (1 + c)
  | c_seq_ask : forall a b s c, costs a s Ask c -> costs (Seq a b) s Ask (1 + c)
  | c_then : forall a b s t s1 c1 r c2, costs a s (Yes t s1) c1 -> costs b s1 r c2 -> costs (Then a b) s r (1 + c1 + c2)
  | c_then_no : forall a b s c, costs a s No c -> costs (Then a b) s No (1 + c)
  | c_then_ask : forall a b s c, costs a s Ask c -> costs (Then a b) s Ask (1 + c)
  | c_alt1 : forall a b s t s1 c, costs a s (Yes t s1) c -> costs (Alt a b) s (Yes t s1) (1 + c)
  | c_alt2 : forall a b s c1 r c2, costs a s No c1 -> costs b s r c2 -> costs (Alt a b) s r (1 + c1 + c2)
  | c_alt_ask : forall a b s c, costs a s Ask c -> costs (Alt a b) s Ask (1 + c)
  | c_opt : forall a s t s1 c, costs a s (Yes t s1) c -> costs (Opt a) s (Yes t s1) (1 + c)
  | c_opt_no : forall a s c, costs a s No c -> costs (Opt a) s (Yes Nothing s) (1 + c)
  | c_opt_ask : forall a s c, costs a s Ask c -> costs (Opt a) s Ask (1 + c)
  | c_ahead : forall a s t s1 c, costs a s (Yes t s1) c -> costs (Ahead a) s (Yes t s) (1 + c)
  | c_ahead_no : forall a s c, costs a s No c -> costs (Ahead a) s No (1 + c)
  | c_ahead_ask : forall a s c, costs a s Ask c -> costs (Ahead a) s Ask (1 + c)
  | c_slice : forall a x t s1 c, costs a (x ++ s1) (Yes t s1) c -> costs (Slice a) (x ++ s1) (Yes (Both (Span x) t) s1) (1 + c)
  | c_slice_no : forall a s c, costs a s No c -> costs (Slice a) s No (1 + c)
  | c_slice_ask : forall a s c, costs a s Ask c -> costs (Slice a) s Ask (1 + c)
  | c_star : forall a s r c, laps a s r c -> costs (Star a) s (amap (@Many I) r) (1 + c)
  | c_plus : forall a s t s1 c1 r c2, costs a s (Yes t s1) c1 -> laps a s1 r c2 -> costs (Plus a) s (amap (@Many I) (amap (cons t) r)) (1 + c1 + c2)
  | c_plus_no : forall a s c, costs a s No c -> costs (Plus a) s No (1 + c)
  | c_plus_ask : forall a s c, costs a s Ask c -> costs (Plus a) s Ask (1 + c)
  | c_times : forall n a s r c, turns n a s r c -> costs (Times n a) s (amap (@Many I) r) (1 + c)
  | c_sep : forall a b s t s1 c1 r c2, costs a s (Yes t s1) c1 -> laps (Then b a) s1 r c2 -> costs (Sep a b) s (amap (@Many I) (amap (cons t) r)) (1 + c1 + c2)
  | c_sep_no : forall a b s c, costs a s No c -> costs (Sep a b) s No (1 + c)
  | c_sep_ask : forall a b s c, costs a s Ask c -> costs (Sep a b) s Ask (1 + c)
  | c_rule : forall n s r c, costs (g n) s r c -> costs (Rule n) s r (1 + c)
  (** As often as possible. *)
  with laps : peg I -> list I -> answer I (list (tree I)) -> nat -> Prop :=
  | l_no : forall a s c, costs a s No c -> laps a s (Yes [] s) c
  | l_ask : forall a s c, costs a s Ask c -> laps a s Ask c
  | l_more : forall a s t s1 c1 r c2, costs a s (Yes t s1) c1 -> laps a s1 r c2 -> laps a s (amap (cons t) r) (c1 + c2)
  (** [n] times. *)
  with turns : nat -> peg I -> list I -> answer I (list (tree I)) -> nat -> Prop :=
  | t_done : forall a s, turns 0 a s (Yes [] s) 0
  | t_no : forall n a s c, costs a s No c -> turns (S n) a s No c
  | t_ask : forall n a s c, costs a s Ask c -> turns (S n) a s Ask c
  | t_more : forall n a s t s1 c1 r c2, costs a s (Yes t s1) c1 -> turns n a s1 r c2 -> turns (S n) a s (amap (cons t) r) (c1 + c2).
End Costs.

Scheme costs_mind := Minimality for costs Sort Prop
  with laps_mind := Minimality for laps Sort Prop
  with turns_mind := Minimality for turns Sort Prop.
Combined Scheme costs_laps_turns_ind from costs_mind, laps_mind, turns_mind.

(** * The parsers cost no more *)

Section Link.
  Context {I : Type}.
  Variable v : bool.
  Variable eqb : I -> I -> bool.
  Variable g : nat -> peg I.
  Notation meter := (peg_meter v eqb g).
  Notation costs := (costs eqb g).
  Notation laps := (laps eqb g).
  Notation turns := (turns eqb g).

  (** The answer of the library, read as an answer here. *)
  Definition means {T} (l : bool) (res : pres I T (error I)) (r : answer I T) : Prop :=
    match res with
    | Data j t => last j = l /\ r = Yes t (buf j)
    | Error _ _ => r = No
    | Incomplete _ => r = over_end l
    | Panic | NoFuel => False
    end.

  Lemma means_map : forall T U (f : T -> U) l res r, means l res r -> means l (map f res) (amap f r).
  Proof.
    intros T U f l [j t|b e|n| |] r H; cbn in *; try contradiction.
    - destruct H as [H ->]. auto.
    - subst. reflexivity.
    - subst. unfold over_end. destruct l; reflexivity.
  Qed.

  Lemma tick_called : forall A (f : A -> bool) w cs bs w', called (tick f) w cs bs w' -> w' = w + length cs /\ bs = List.map f cs.
  Proof.
    intros A f w cs bs w'. induction 1 as [w|w c cs b bs w1 w2 H H2 [IH IHb]]; [cbn; split; [lia|reflexivity]|]. unfold tick in H. inversion H; subst. cbn. split; [lia|reflexivity].
  Qed.
  Lemma tick_all : forall A (f : A -> bool) b w cs w', all_called (tick f) b w cs w' -> w' = w + length cs /\ Forall (fun a => f a = b) cs.
  Proof.
    intros A f b w cs w' H. destruct (tick_called H) as [-> Hb]. split; [reflexivity|]. clear H. induction cs as [|c cs IH]; [constructor|]. cbn in Hb. injection Hb as E E2. constructor; [congruence|].
    apply IH. assumption.
  Qed.

  Definition priced (e : peg I) (l : bool) (s : list I) (res : pres I (tree I) (error I)) (n n' : nat) : Prop :=
    exists r c, costs l e s r c /\ means l res r /\ n' <= n + c.

  Lemma sat_priced : forall f i n res n', satisfy_w v (tick f) n i = (res, n') -> priced (Sat f) (last i) (buf i) (map (@One I) res) (pred n) n'.
  Proof.
    intros f [l [|x s]] n res n' H; unfold satisfy_w in H; cbn in H.
    - inversion H; subst. exists (over_end l), 1. repeat split; [apply c_sat_end|]. lia.
    - destruct (f x) eqn:Hx; inversion H; subst.
      + exists (Yes (One x) s), 2. repeat split; [apply c_sat; assumption|]. lia.
      + exists No, 2. repeat split; [apply c_sat_not; assumption|]. lia.
  Qed.

  Lemma same_combine : forall w s, length w <= length s -> Forall (fun ab => negb (eqb (fst ab) (snd ab)) = false) (combine w s) ->
    same_items eqb w (firstn (length w) s).
  Proof.
    induction w as [|a w IH]; intros [|c s] Hl H; cbn in *; try constructor; try lia.
    - inversion H; subst. cbn in *. destruct (eqb a c); [reflexivity|discriminate].
    - apply IH; [lia|]. inversion H; subst. assumption.
  Qed.
  Lemma differ_combine : forall w s cs c rest, combine w s = cs ++ c :: rest -> negb (eqb (fst c) (snd c)) = true ->
    forall x y, s = x ++ y -> ~ same_items eqb w x.
  Proof.
    induction w as [|a w IH]; intros s cs c rest E Hc x y -> Hs; [destruct cs; discriminate|]. inversion Hs; subst. cbn in E. destruct cs as [|c1 cs]; inversion E; subst.
    - cbn in Hc. rewrite H1 in Hc. discriminate.
    - eapply IH; [eassumption|assumption|reflexivity|assumption].
  Qed.

  Lemma lit_priced : forall w i n res n', string_w v (tick (fun ab => negb (eqb (fst ab) (snd ab)))) w n i = (res, n') -> 
    priced (Lit w) (last i) (buf i) (map (@Span I) res) (pred n) n'.
  Proof.
    intros w [l s] n res n' H. apply string_w_char in H. cbn [buf last] in *. destruct H as [(Hlt & -> & ->)|(Hle & vd & Hv & ->)].
    - exists (over_end l), 1. repeat split; [|lia]. apply c_lit_ask. intros _ x y -> Hs. apply same_items_length in Hs. rewrite app_length in Hlt. lia.
    - inversion Hv; subst.
      + destruct (tick_all H) as [-> Hf]. rewrite combine_length. exists (Yes (Span (firstn (length w) s)) (skipn (length w) s)), (1 + length w).
        split; [|split; [cbn; auto|lia]]. rewrite <- (firstn_skipn (length w) s) at 1. apply c_lit, same_combine; assumption.
      + destruct (tick_all H0) as [-> Hf]. unfold tick in H1. inversion H1; subst. exists No, (1 + length w). split; [|split].
        * apply c_lit_not. eapply differ_combine; eassumption.
        * unfold err_string. destruct v; reflexivity.
        * assert (Hc : length (combine w s) = length cs + S (length rest)) by (rewrite H, app_length; reflexivity). rewrite combine_length in Hc. lia.
      + unfold tick in H1. discriminate.
  Qed.

  Lemma run_priced : forall f i n res n', take_while_w (tick f) n i = (res, n') -> priced (Run f) (last i) (buf i) (map (@Span I) res) (pred n) n'.
  Proof.
    intros f [l s] n res n' H. apply take_while_w_char in H. cbn [buf last] in *. destruct H as (vd & Hv & ->). inversion Hv; subst.
    - destruct (tick_all H) as [-> Hf]. exists (if l then Yes (Span s) [] else Ask), (1 + length s). split; [apply c_run_end; assumption|]. split; [|lia]. destruct l; cbn; auto.
    - destruct (tick_all H0) as [-> Hf]. unfold tick in H1. inversion H1; subst. exists (Yes (Span cs) (c :: rest)), (2 + length cs). split; [apply c_run; assumption|]. split; [cbn; auto|lia].
    - unfold tick in H1. discriminate.
  Qed.

  (** Repetitions. *)
  Definition lpriced (a : peg I) (l : bool) (s : list I) (res : pres I (list (tree I)) (error I)) (n n' : nat) : Prop :=
    exists r c, laps l a s r c /\ means l res r /\ n' <= n + c.

  Lemma goes_laps : forall rg (p : nat -> sparser nat I (tree I) (error I)) a k0,
    (forall k n i res n', k0 <= k -> p k n i = (res, n') -> res <> NoFuel -> priced a (last i) (buf i) res n n') ->
    (forall k, k0 <= k -> in_range rg k /\ may_grow rg k) ->
    forall k n i res n', many_goes rg p k n i res n' -> k0 <= k -> lpriced a (last i) (buf i) res n n'.
  Proof.
    intros rg p a k0 Hp Hr. induction 1 as [k w i Hg Hin|k w i j u w1 res w2 Hg H Hm IH|k w i b e w1 Hg H Hin|k w i b e w1 Hg H Hin|k w i m w1 Hg H Hin Hl|k w i m w1 Hg H Hin|k w i w1 Hg H];
      intros Hk; destruct (Hr k Hk) as [Hi Hgr]; try contradiction; try (destruct (Hp _ _ _ _ _ Hk H) as (r & c & C & M & L); [discriminate|]; cbn in M).
    - destruct M as [El ->]. destruct IH as (r2 & c2 & C2 & M2 & L2); [lia|]. rewrite El in *. exists (amap (cons u) r2), (c + c2). split; [eapply l_more; eassumption|].
      split; [apply means_map; assumption|lia].
    - subst. exists (Yes [] (buf i)), c. split; [apply l_no; assumption|]. split; [cbn; auto|lia].
    - subst. rewrite Hl in *. exists (Yes [] (buf i)), c. split; [apply l_no; assumption|]. split; [cbn; auto|lia].
    - destruct Hin as [Hin|Hin]; [contradiction|]. subst. rewrite Hin in *. exists Ask, c. split; [apply l_ask; assumption|]. split; [reflexivity|lia].
    - contradiction.
  Qed.

  Lemma goes_turns : forall (p : sparser nat I (tree I) (error I)) a m,
    (forall n i res n', p n i = (res, n') -> res <> NoFuel -> priced a (last i) (buf i) res n n') ->
    forall k n i res n', many_goes (RExact m) (fun _ => p) k n i res n' -> k <= m ->
      exists r c, turns (last i) (m - k) a (buf i) r c /\ means (last i) res r /\ n' <= n + c.
  Proof.
    intros p a m Hp. assert (Hgrow : forall k, may_grow (RExact m) k -> k < m) by (intros k (k' & Hk & E); cbn in E; lia).
    induction 1 as [k w i Hg Hin|k w i j u w1 res w2 Hg H Hm IH|k w i b e w1 Hg H Hin|k w i b e w1 Hg H Hin|k w i x w1 Hg H Hin Hl|k w i x w1 Hg H Hin|k w i w1 Hg H];
      intros Hk; cbn [in_range] in *; try (pose proof (Hgrow _ Hg)); try (exfalso; lia); try (destruct (Hp _ _ _ _ H) as (r & c & C & M & L); [discriminate|]; cbn in M).
    - subst. rewrite Nat.sub_diag. exists (Yes [] (buf i)), 0. split; [constructor|]. split; [cbn; auto|lia].
    - destruct M as [El ->]. destruct IH as (r2 & c2 & C2 & M2 & L2); [lia|]. rewrite El in *. replace (m - k) with (S (m - S k)) by lia. exists (amap (cons u) r2), (c + c2).
      split; [eapply t_more; eassumption|]. split; [apply means_map; assumption|lia].
    - subst. replace (m - k) with (S (m - S k)) by lia. exists No, c. split; [apply t_no; assumption|]. split; [reflexivity|lia].
    - subst. replace (m - k) with (S (m - S k)) by lia. exists (over_end (last i)), c. split; [|split; [reflexivity|lia]]. unfold over_end in *. destruct (last i); [apply t_no|apply t_ask]; assumption.
    - contradiction.
  Qed.

  (** [many1] and [sep_by1]: one item and then more. *)
  Lemma goes_from1 : forall (p : nat -> sparser nat I (tree I) (error I)) a a',
    (forall n i res n', p 0 n i = (res, n') -> res <> NoFuel -> priced a (last i) (buf i) res n n') ->
    (forall k n i res n', 1 <= k -> p k n i = (res, n') -> res <> NoFuel -> priced a' (last i) (buf i) res n n') ->
    forall n i res n', many_goes (RFrom 1) p 0 n i res n' ->
      (exists t s1 c1 r c2, costs (last i) a (buf i) (Yes t s1) c1 /\ laps (last i) a' s1 r c2 /\ means (last i) res (amap (cons t) r) /\ n' <= n + c1 + c2) \/
      (exists c, costs (last i) a (buf i) No c /\ means (last i) res No /\ n' <= n + c) \/
      (exists c, costs (last i) a (buf i) Ask c /\ means (last i) res Ask /\ n' <= n + c).
  Proof.
    intros p a a' H0 H1 n i res n' H. assert (Hr : forall k, 1 <= k -> in_range (RFrom 1) k /\ may_grow (RFrom 1) k) by (intros k Hk; split; [exact Hk|exists (S k); cbn; lia]).
    inversion H as [k w i' Hg Hin|k w i' j u w1 res' w2 Hg Hp Hm|k w i' b e w1 Hg Hp Hin|k w i' b e w1 Hg Hp Hin|k w i' m w1 Hg Hp Hin Hl|k w i' m w1 Hg Hp Hin|k w i' w1 Hg Hp];
      subst; cbn [in_range] in *; try (exfalso; lia); destruct (H0 _ _ _ _ Hp) as (r & c & C & M & L); try discriminate; cbn in M.
    - destruct M as [El ->]. destruct (@goes_laps (RFrom 1) p a' 1 H1 Hr _ _ _ _ _ Hm) as (r2 & c2 & C2 & M2 & L2); [lia|]. rewrite El in *. left. exists u, (buf j), c, r2, c2.
      split; [assumption|]. split; [assumption|]. split; [apply means_map; assumption|lia].
    - subst. right. left. exists c. cbn. auto.
    - subst. unfold over_end in C. right. destruct (last i) eqn:El; [left|right]; exists c; (split; [assumption|]; split; [reflexivity|assumption]).
    - contradiction.
  Qed.

  Lemma map_nofuel : forall T U (f : T -> U) (r : pres I T (error I)), map f r <> NoFuel -> r <> NoFuel.
  Proof. intros T U f r H ->. apply H. reflexivity. Qed.

  Lemma rest_suffix : forall fuel e n i j t n', meter fuel e n i = (Data j t, n') -> suffix (buf j) (buf i).
  Proof.
    intros fuel e n [l s] j t n' H. pose proof (undisturbed v eqb g fuel e n (mkInput l s)) as U. rewrite H in U. cbn in U. symmetry in U.
    destruct (sound_data _ _ (sound v eqb g fuel e) U) as (_ & d & D & _). exact (proj1 (derives_suffix eqb g) _ _ _ _ D _ _ eq_refl).
  Qed.

  Definition linked (fuel : nat) (e : peg I) : Prop := forall n i res n', meter fuel e n i = (res, n') -> res <> NoFuel -> priced e (last i) (buf i) res n n'.

  (** [Seq] and [Then], where the second parser is [q]. *)
  Lemma link_bind : forall fuel a b U (q : tree I -> sparser nat I U (error I)) (h : tree I -> tree I -> U), linked fuel a ->
    (forall t n i res n', q t n i = (res, n') -> res <> NoFuel -> exists r c, costs (last i) b (buf i) r c /\ means (last i) res (amap (h t) r) /\ n' <= n + c) ->
    forall n i res n', (let (r, n) := meter fuel a (S n) i in bind_w (fun e n => (Some e, n)) r q n) = (res, n') -> res <> NoFuel ->
      (exists t s1 c1 r c2, costs (last i) a (buf i) (Yes t s1) c1 /\ costs (last i) b s1 r c2 /\ means (last i) res (amap (h t) r) /\ n' <= n + (1 + c1 + c2)) \/
      (exists c, costs (last i) a (buf i) No c /\ means (last i) res No /\ n' <= n + (1 + c)) \/
      (exists c, costs (last i) a (buf i) Ask c /\ means (last i) res Ask /\ n' <= n + (1 + c)).
  Proof.
    intros fuel a b U q h Ha Hq n i res n' H Hnf. destruct (meter fuel a (S n) i) as [[j t|x e|m| |] n1] eqn:E; cbn [bind_w] in H.
    - destruct (Ha _ _ _ _ E) as (r & c & C & M & L); [discriminate|]. destruct M as [El ->]. destruct (q t n1 j) as [res2 n2] eqn:F.
      assert (H2 : res2 = res /\ n2 = n') by (destruct res2; cbn in H; inversion H; auto). destruct H2; subst. destruct (Hq _ _ _ _ _ F Hnf) as (r2 & c2 & C2 & M2 & L2).
      rewrite El in *. left. exists t, (buf j), c, r2, c2. repeat split; try assumption. lia.
    - inversion H; subst. destruct (Ha _ _ _ _ E) as (r & c & C & M & L); [discriminate|]. cbn in M. subst. right. left. exists c. repeat split; [assumption|lia].
    - inversion H; subst. destruct (Ha _ _ _ _ E) as (r & c & C & M & L); [discriminate|]. cbn in M. subst. unfold over_end in C. cbn. right. unfold over_end.
      destruct (last i) eqn:El; [left|right]; exists c; (split; [assumption|]; split; [reflexivity|lia]).
    - inversion H; subst. destruct (Ha _ _ _ _ E) as (r & c & C & M & L); [discriminate|]. contradiction.
    - inversion H; subst. contradiction.
  Qed.

  Lemma amap_id : forall T (r : answer I T), amap (fun t => t) r = r.
  Proof. intros T [t s| |]; reflexivity. Qed.

  Lemma link_seq : forall fuel a b, linked fuel a -> linked fuel b -> linked fuel (Seq a b).
  Proof.
    intros fuel a b Ha Hb n i res n' H Hnf. rewrite meter_eq in H.
    eapply (@link_bind fuel a b _ _ (@Both I) Ha) in H; [|intros t m j r m' E Hr; destruct (meter fuel b m j) as [r0 m0] eqn:F; inversion E; subst;
      destruct (Hb _ _ _ _ F (map_nofuel _ Hr)) as (r2 & c2 & C2 & M2 & L2); exists r2, c2; split; [assumption|]; split; [apply means_map; assumption|assumption] |assumption].
    destruct H as [(t & s1 & c1 & r & c2 & C1 & C2 & M & L)|[(c & C & M & L)|(c & C & M & L)]].
    - exists (amap (Both t) r), (1 + c1 + c2). split; [eapply c_seq; eassumption|auto].
    - exists No, (1 + c). split; [apply c_seq_no; assumption|auto].
    - exists Ask, (1 + c). split; [apply c_seq_ask; assumption|auto].
  Qed.
  Lemma link_then : forall fuel a b, linked fuel a -> linked fuel b -> linked fuel (Then a b).
  Proof.
    intros fuel a b Ha Hb n i res n' H Hnf. rewrite meter_eq in H. unfold then_w in H.
    eapply (@link_bind fuel a b _ _ (fun _ u => u) Ha) in H; [|intros t m j r m' E Hr; destruct (Hb _ _ _ _ E Hr) as (r2 & c2 & C2 & M2 & L2); exists r2, c2; rewrite amap_id; auto|assumption].
    destruct H as [(t & s1 & c1 & r & c2 & C1 & C2 & M & L)|[(c & C & M & L)|(c & C & M & L)]].
    - rewrite amap_id in M. exists r, (1 + c1 + c2). split; [eapply c_then; eassumption|auto].
    - exists No, (1 + c). split; [apply c_then_no; assumption|auto].
    - exists Ask, (1 + c). split; [apply c_then_ask; assumption|auto].
  Qed.

  (** The cases of what one parser returns. *)
  Ltac sub Ha E := let r := fresh "r" in let c := fresh "c" in let C := fresh "C" in let M := fresh "M" in let L := fresh "L" in
    destruct (Ha _ _ _ _ E) as (r & c & C & M & L); [discriminate|]; cbn in M; try contradiction.

  Lemma link_alt : forall fuel a b, linked fuel a -> linked fuel b -> linked fuel (Alt a b).
  Proof.
    intros fuel a b Ha Hb n i res n' H Hnf. rewrite meter_eq in H. unfold or_w in H. destruct (meter fuel a (S n) i) as [[j t|x e|m| |] n1] eqn:E.
    - inversion H; subst. sub Ha E. destruct M as [El ->]. exists (Yes t (buf j)), (1 + c). split; [apply c_alt1; assumption|]. split; [cbn; auto|lia].
    - sub Ha E. subst. destruct (Hb _ _ _ _ H Hnf) as (r2 & c2 & C2 & M2 & L2). exists r2, (1 + c + c2). split; [apply c_alt2; assumption|]. split; [assumption|lia].
    - sub Ha E. subst. unfold over_end in C. destruct (last i) eqn:El.
      + destruct (Hb _ _ _ _ H Hnf) as (r2 & c2 & C2 & M2 & L2). rewrite El in *. exists r2, (1 + c + c2). split; [apply c_alt2; assumption|]. split; [assumption|lia].
      + inversion H; subst. exists Ask, (1 + c). split; [apply c_alt_ask; assumption|]. split; [reflexivity|lia].
    - sub Ha E.
    - inversion H; subst. contradiction.
  Qed.
  Lemma link_opt : forall fuel a, linked fuel a -> linked fuel (Opt a).
  Proof.
    intros fuel a Ha n i res n' H Hnf. rewrite meter_eq in H. unfold option_w in H. destruct (meter fuel a (S n) i) as [[j t|x e|m| |] n1] eqn:E; inversion H; subst.
    - sub Ha E. destruct M as [El ->]. exists (Yes t (buf j)), (1 + c). split; [apply c_opt; assumption|]. split; [cbn; auto|lia].
    - sub Ha E. subst. exists (Yes Nothing (buf i)), (1 + c). split; [apply c_opt_no; assumption|]. split; [cbn; auto|lia].
    - sub Ha E. subst. unfold over_end in C. destruct (last i) eqn:El.
      + exists (Yes Nothing (buf i)), (1 + c). split; [apply c_opt_no; assumption|]. split; [cbn; auto|lia].
      + exists Ask, (1 + c). split; [apply c_opt_ask; assumption|]. split; [reflexivity|lia].
    - sub Ha E.
    - contradiction.
  Qed.
  Lemma link_ahead : forall fuel a, linked fuel a -> linked fuel (Ahead a).
  Proof.
    intros fuel a Ha n i res n' H Hnf. rewrite meter_eq in H. unfold look_ahead_w in H. destruct (meter fuel a (S n) i) as [[j t|x e|m| |] n1] eqn:E; inversion H; subst.
    - sub Ha E. destruct M as [El ->]. exists (Yes t (buf i)), (1 + c). split; [eapply c_ahead; eassumption|]. split; [cbn; auto|lia].
    - sub Ha E. subst. exists No, (1 + c). split; [apply c_ahead_no; assumption|]. split; [reflexivity|lia].
    - sub Ha E. subst. exists (over_end (last i)), (1 + c). split; [|split; [reflexivity|lia]]. unfold over_end in *. destruct (last i); [apply c_ahead_no|apply c_ahead_ask]; assumption.
    - sub Ha E.
    - contradiction.
  Qed.
  Lemma link_slice : forall fuel a, linked fuel a -> linked fuel (Slice a).
  Proof.
    intros fuel a Ha n i res n' H Hnf. rewrite meter_eq in H. unfold matched_by_w in H. destruct (meter fuel a (S n) i) as [[j t|x e|m| |] n1] eqn:E.
    - sub Ha E. destruct M as [El ->]. destruct (rest_suffix _ _ _ _ E) as (x & Ex). rewrite Ex in *.
      replace (length (x ++ buf j) <? length (buf j)) with false in H by (symmetry; apply Nat.ltb_ge; rewrite app_length; lia).
      replace (length (x ++ buf j) - length (buf j)) with (length x) in H by (rewrite app_length; lia). rewrite firstn_app, firstn_all, Nat.sub_diag in H. cbn in H. rewrite app_nil_r in H.
      inversion H; subst. exists (Yes (Both (Span x) t) (buf j)), (1 + c). split; [apply c_slice; assumption|]. split; [cbn; auto|lia].
    - inversion H; subst. sub Ha E. subst. exists No, (1 + c). split; [apply c_slice_no; assumption|]. split; [reflexivity|lia].
    - inversion H; subst. sub Ha E. subst. exists (over_end (last i)), (1 + c). split; [|split; [reflexivity|lia]]. unfold over_end in *. destruct (last i); [apply c_slice_no|apply c_slice_ask]; assumption.
    - sub Ha E.
    - inversion H; subst. contradiction.
  Qed.
  Lemma link_star : forall fuel a, linked fuel a -> linked fuel (Star a).
  Proof.
    intros fuel a Ha n i res n' H Hnf. rewrite meter_eq in H. unfold many_w in H. destruct (bmany_w _ _ _ _ _ _) as [r n1] eqn:E. inversion H; subst.
    apply bmany_w_sound in E; [|exists 0; exact Logic.I|exact (map_nofuel _ Hnf)].
    assert (Hr : forall k, 0 <= k -> in_range RFull k /\ may_grow RFull k) by (intros k _; split; [exact Logic.I|exists (S k); cbn; auto]).
    destruct (@goes_laps RFull (fun _ => meter fuel a) a 0 (fun k n i res n' _ H1 H2 => Ha n i res n' H1 H2) Hr _ _ _ _ _ E (le_n _)) as (r2 & c & C & M & L).
    exists (amap (@Many I) r2), (1 + c). split; [apply c_star; assumption|]. split; [apply means_map; assumption|lia].
  Qed.
  Lemma link_times : forall fuel m a, linked fuel a -> linked fuel (Times m a).
  Proof.
    intros fuel m a Ha n i res n' H Hnf. rewrite meter_eq in H. unfold count_w in H. destruct (bmany_w _ _ _ _ _ _) as [r n1] eqn:E. inversion H; subst.
    apply bmany_w_sound in E; [|exists m; reflexivity|exact (map_nofuel _ Hnf)].
    destruct (goes_turns Ha E (Nat.le_0_l _)) as (r2 & c & C & M & L). rewrite Nat.sub_0_r in C.
    exists (amap (@Many I) r2), (1 + c). split; [apply c_times; assumption|]. split; [apply means_map; assumption|lia].
  Qed.
  Lemma link_plus : forall fuel a, linked fuel a -> linked fuel (Plus a).
  Proof.
    intros fuel a Ha n i res n' H Hnf. rewrite meter_eq in H. unfold many1_w in H. destruct (bmany_w _ _ _ _ _ _) as [r n1] eqn:E. inversion H; subst.
    apply bmany_w_sound in E; [|exists 1; cbn; lia|exact (map_nofuel _ Hnf)].
    destruct (@goes_from1 (fun _ => meter fuel a) a a Ha (fun k n i res n' _ H1 H2 => Ha n i res n' H1 H2) _ _ _ _ E) as [(t & s1 & c1 & r2 & c2 & C1 & C2 & M & L)|[(c & C & M & L)|(c & C & M & L)]].
    - exists (amap (@Many I) (amap (cons t) r2)), (1 + c1 + c2). split; [eapply c_plus; eassumption|]. split; [apply means_map; assumption|lia].
    - exists No, (1 + c). split; [apply c_plus_no; assumption|]. split; [exact (means_map (@Many I) _ _ _ M)|lia].
    - exists Ask, (1 + c). split; [apply c_plus_ask; assumption|]. split; [exact (means_map (@Many I) _ _ _ M)|lia].
  Qed.
  Lemma link_sep : forall fuel a b, linked fuel a -> linked fuel b -> linked fuel (Sep a b).
  Proof.
    intros fuel a b Ha Hb n i res n' H Hnf. rewrite meter_eq in H. destruct (sep_by1_w _ _ _ _ _ _ _) as [r n1] eqn:E. inversion H; subst.
    apply sep_by1_w_sound in E; [|exact (map_nofuel _ Hnf)].
    assert (Hba : forall k n i res n', 1 <= k -> separated (fun e n => (Some e, n)) (meter fuel a) (meter fuel b) k n i = (res, n') -> res <> NoFuel ->
      priced (Then b a) (last i) (buf i) res n n').
    { intros [|k] m j x m' Hk Hs Hx; [lia|]. cbn [separated] in Hs. unfold sep_then in Hs. destruct (meter fuel b m j) as [[j1 t|y e|q| |] m1] eqn:F.
      - sub Hb F. destruct M as [El ->]. destruct (Ha _ _ _ _ Hs Hx) as (r2 & c2 & C2 & M2 & L2). rewrite El in *. exists r2, (1 + c + c2). split; [eapply c_then; eassumption|].
        split; [assumption|lia].
      - inversion Hs; subst. sub Hb F. subst. exists No, (1 + c). split; [apply c_then_no; assumption|]. split; [reflexivity|lia].
      - inversion Hs; subst. sub Hb F. subst. exists (over_end (last j)), (1 + c). split; [|split; [reflexivity|lia]]. unfold over_end in *. destruct (last j); [apply c_then_no|apply c_then_ask]; assumption.
      - sub Hb F.
      - inversion Hs; subst. contradiction. }
    destruct (@goes_from1 _ a (Then b a) Ha Hba _ _ _ _ E) as [(t & s1 & c1 & r2 & c2 & C1 & C2 & M & L)|[(c & C & M & L)|(c & C & M & L)]].
    - exists (amap (@Many I) (amap (cons t) r2)), (1 + c1 + c2). split; [eapply c_sep; eassumption|]. split; [apply means_map; assumption|lia].
    - exists No, (1 + c). split; [apply c_sep_no; assumption|]. split; [exact (means_map (@Many I) _ _ _ M)|lia].
    - exists Ask, (1 + c). split; [apply c_sep_ask; assumption|]. split; [exact (means_map (@Many I) _ _ _ M)|lia].
  Qed.

  Lemma link : forall fuel e, linked fuel e.
  Proof.
    assert (Hprim : forall fuel e, match e with Empty | Sat _ | Lit _ | Run _ => linked fuel e | _ => True end).
    { intros fuel e. destruct e as [|f|w|f|a b|a b|a b|a|a|a|a|a|m a|a b|m]; try exact Logic.I; intros n i res n' H Hnf; rewrite meter_eq in H.
      - inversion H; subst. exists (Yes Nothing (buf i)), 1. split; [constructor|]. split; [cbn; auto|lia].
      - destruct (satisfy_w _ _ _ _) as [r1 n1] eqn:E. inversion H; subst. exact (sat_priced _ _ _ E).
      - destruct (string_w _ _ _ _ _) as [r1 n1] eqn:E. inversion H; subst. exact (lit_priced _ _ _ E).
      - destruct (take_while_w _ _ _) as [r1 n1] eqn:E. inversion H; subst. exact (run_priced _ _ _ E). }
    induction fuel as [|fuel IHf]; intros e; induction e as [|f|w|f|a IHa b IHb|a IHa b IHb|a IHa b IHb|a IHa|a IHa|a IHa|a IHa|a IHa|m a IHa|a IHa b IHb|m];
      auto using link_seq, link_then, link_alt, link_opt, link_ahead, link_slice, link_star, link_plus, link_times, link_sep.
    all: try exact (Hprim _ Empty); try exact (Hprim _ (Sat f)); try exact (Hprim _ (Lit w)); try exact (Hprim _ (Run f)).
    - intros n i res n' H Hnf. rewrite meter_eq in H. inversion H; subst. contradiction.
    - intros n i res n' H Hnf. rewrite meter_eq in H. destruct (IHf _ _ _ _ _ H Hnf) as (r & c & C & M & L). exists r, (1 + c). split; [apply c_rule; assumption|]. split; [assumption|lia].
  Qed.
End Link.

(** * What is consumed has been looked at *)

Section Looked.
  Context {I : Type}.
  Variable v : bool.
  Variable eqb : I -> I -> bool.
  Variable g : nat -> peg I.
  Notation meter := (peg_meter v eqb g).

  Definition pays {T} (n : nat) (i : input I) (res : pres I T (error I)) (n' : nat) : Prop :=
    n <= n' /\ forall j t, res = Data j t -> n + length (buf i) <= n' + length (buf j).
  Definition payer {T} (p : sparser nat I T (error I)) : Prop := forall n i res n', p n i = (res, n') -> res <> NoFuel -> pays n i res n'.

  Lemma pays_map : forall T U (h : T -> U) n i res n', pays n i res n' -> pays n i (map h res) n'.
  Proof. intros T U h n i res n' [H1 H2]. split; [assumption|]. intros j u E. destruct res; inversion E; subst. eapply H2. reflexivity. Qed.
  Lemma pays_later : forall T n i (res : pres I T (error I)) n', pays (S n) i res n' -> n < n' /\ pays n i res n'.
  Proof. intros T n i res n' [H1 H2]. split; [lia|]. split; [lia|]. intros j t E. specialize (H2 j t E). lia. Qed.

  Lemma search_pays : forall A (f : A -> bool) b w s vd w', search (tick f) b w s vd w' -> w <= w' /\
    match vd with Through => w' = w + length s | UpTo cs _ _ => w' = w + length cs + 1 | Dead => False end.
  Proof.
    intros A f b w s vd w' H. inversion H; subst.
    - destruct (tick_all H0) as [-> _]. lia.
    - destruct (tick_all H1) as [-> _]. unfold tick in H2. inversion H2. lia.
    - unfold tick in H2. discriminate.
  Qed.

  Lemma satisfy_pays : forall f, payer (satisfy_w v (tick f)).
  Proof.
    intros f n [l [|x s]] res n' H _; unfold satisfy_w in H; cbn in H; [|destruct (f x)]; inversion H; subst; split; try lia; intros j t E; inversion E; subst; cbn; lia.
  Qed.
  Lemma take_while_pays : forall f, payer (take_while_w (I := I) (tick f)).
  Proof.
    intros f n [l s] res n' H _. apply take_while_w_char in H. cbn [buf last] in *. destruct H as (vd & Hv & ->). destruct (search_pays Hv) as [L Hl]. split; [assumption|]. intros j t E.
    destruct vd as [|cs c rest|]; [destruct l|..]; inversion E; subst; cbn.
    - lia.
    - inversion Hv; subst. rewrite app_length. cbn. lia.
  Qed.
  Lemma string_pays : forall w, payer (string_w v (tick (fun ab => negb (eqb (fst ab) (snd ab)))) w).
  Proof.
    intros w n [l s] res n' H _. apply string_w_char in H. cbn [buf last] in *. destruct H as [(Hlt & -> & ->)|(Hle & vd & Hv & ->)]; [split; [lia|discriminate]|].
    destruct (search_pays Hv) as [L Hl]. split; [assumption|]. intros j t E. destruct vd as [|cs c rest|].
    - inversion E; subst. cbn. rewrite combine_length, skipn_length. lia.
    - unfold err_string in E. destruct v; discriminate.
    - discriminate.
  Qed.

  Lemma goes_pays : forall T rg (p : nat -> sparser nat I T (error I)), (forall k, payer (p k)) ->
    forall k n i res n', many_goes rg p k n i res n' -> pays n i res n'.
  Proof.
    intros T rg p Hp. induction 1 as [k w i Hg Hin|k w i j u w1 res w2 Hg H Hm IH|k w i b e w1 Hg H Hin|k w i b e w1 Hg H Hin|k w i x w1 Hg H Hin Hl|k w i x w1 Hg H Hin|k w i w1 Hg H];
      try (destruct (Hp _ _ _ _ _ H) as [L1 L2]; [discriminate|]); try (split; [lia|]; intros j' t E; inversion E; subst; lia).
    specialize (L2 _ _ eq_refl). apply pays_map. destruct IH as [L3 L4]. split; [lia|]. intros j' t E. specialize (L4 _ _ E). lia.
  Qed.

  Definition strict (fuel : nat) (e : peg I) : Prop := forall n i res n', meter fuel e n i = (res, n') -> res <> NoFuel -> n < n' /\ pays n i res n'.

  Lemma loop_pays : forall fuel rg p n i res n', payer p -> nonempty rg -> bmany_w fuel (vec_collector (tree I)) p rg n i = (res, n') -> res <> NoFuel -> pays n i res n'.
  Proof. intros fuel rg p n i res n' Hp Hne H Hnf. apply bmany_w_sound in H; auto. exact (goes_pays (fun _ => Hp) H). Qed.
  Lemma strict_payer : forall fuel e, strict fuel e -> payer (meter fuel e).
  Proof. intros fuel e H n i res n' E Hn. apply (H _ _ _ _ E Hn). Qed.
  Lemma pays_then : forall T U n i (r : pres I T (error I)) n1 j t (res : pres I U (error I)) n', pays n i r n1 -> r = Data j t -> pays n1 j res n' -> pays n i res n'.
  Proof. intros T U n i r n1 j t res n' [H1 H2] E [H3 H4]. specialize (H2 _ _ E). split; [lia|]. intros j2 u E2. specialize (H4 _ _ E2). lia. Qed.

  Lemma meter_pays_at : forall fuel, (forall k, strict fuel (Rule k)) -> forall e, strict fuel e.
  Proof.
    intros fuel Hrule. induction e as [|f|w|f|a IHa b IHb|a IHa b IHb|a IHa b IHb|a IHa|a IHa|a IHa|a IHa|a IHa|m a IHa|a IHa b IHb|m]; [..|apply Hrule];
      intros n i res n' H Hnf; rewrite meter_eq in H; apply pays_later.
    - inversion H; subst. split; [lia|]. intros j t E. inversion E; subst. lia.
    - destruct (satisfy_w _ _ _ _) as [r1 n1] eqn:E. inversion H; subst. apply pays_map. exact (satisfy_pays _ _ _ E (map_nofuel _ Hnf)).
    - destruct (string_w _ _ _ _ _) as [r1 n1] eqn:E. inversion H; subst. apply pays_map. exact (string_pays _ _ _ E (map_nofuel _ Hnf)).
    - destruct (take_while_w _ _ _) as [r1 n1] eqn:E. inversion H; subst. apply pays_map. exact (take_while_pays _ _ _ E (map_nofuel _ Hnf)).
    - destruct (meter fuel a (S n) i) as [[j t|x e|q| |] n1] eqn:E; cbn [bind_w] in H; try (inversion H; subst; contradiction);
        (destruct (strict_payer IHa _ _ E) as [L1 L2]; [discriminate|]); [|inversion H; subst; split; [lia|discriminate]..].
      destruct (meter fuel b n1 j) as [r2 n2] eqn:F. assert (Hr : map (Both t) r2 = res /\ n2 = n') by (destruct r2; cbn in H; inversion H; auto). destruct Hr as [<- <-].
      eapply pays_then; [split; eassumption|reflexivity|]. apply pays_map, (strict_payer IHb _ _ F (map_nofuel _ Hnf)).
    - unfold then_w in H. destruct (meter fuel a (S n) i) as [[j t|x e|q| |] n1] eqn:E; cbn [bind_w] in H; try (inversion H; subst; contradiction);
        (destruct (strict_payer IHa _ _ E) as [L1 L2]; [discriminate|]); [|inversion H; subst; split; [lia|discriminate]..].
      destruct (meter fuel b n1 j) as [r2 n2] eqn:F. assert (Hr : r2 = res /\ n2 = n') by (destruct r2; cbn in H; inversion H; auto). destruct Hr as [<- <-].
      eapply pays_then; [split; eassumption|reflexivity|]. apply (strict_payer IHb _ _ F Hnf).
    - unfold or_w in H. destruct (meter fuel a (S n) i) as [[j t|x e|q| |] n1] eqn:E; try (inversion H; subst; contradiction);
        (destruct (strict_payer IHa _ _ E) as [L1 L2]; [discriminate|]); try (inversion H; subst; split; [lia|]; intros j' t' E'; inversion E'; subst; eapply L2; reflexivity).
      + destruct (strict_payer IHb _ _ H Hnf) as [L3 L4]. split; [lia|]. intros j t E'. specialize (L4 _ _ E'). lia.
      + destruct (last i); [|inversion H; subst; split; [lia|discriminate]]. destruct (strict_payer IHb _ _ H Hnf) as [L3 L4]. split; [lia|]. intros j t E'. specialize (L4 _ _ E'). lia.
    - unfold option_w in H. destruct (meter fuel a (S n) i) as [[j t|x e|q| |] n1] eqn:E; try (inversion H; subst; contradiction);
        (destruct (strict_payer IHa _ _ E) as [L1 L2]; [discriminate|]); try (inversion H; subst; split; [lia|]; intros j' t' E'; inversion E'; subst; first [eapply L2; reflexivity|lia]).
      destruct (last i); inversion H; subst; (split; [lia|]); intros j' t' E'; inversion E'; subst; lia.
    - unfold look_ahead_w in H. destruct (meter fuel a (S n) i) as [[j t|x e|q| |] n1] eqn:E; try (inversion H; subst; contradiction);
        (destruct (strict_payer IHa _ _ E) as [L1 L2]; [discriminate|]); inversion H; subst; (split; [lia|]); intros j' t' E'; inversion E'; subst; lia.
    - unfold matched_by_w in H. destruct (meter fuel a (S n) i) as [[j t|x e|q| |] n1] eqn:E; try (inversion H; subst; contradiction);
        (destruct (strict_payer IHa _ _ E) as [L1 L2]; [discriminate|]); inversion H; subst; (split; [lia|]); intros j' t' E'; try discriminate.
      destruct (length (buf i) <? length (buf j)); inversion E'; subst. eapply L2. reflexivity.
    - destruct (many_w _ _ _ _ _) as [r1 n1] eqn:E. inversion H; subst. apply pays_map. exact (@loop_pays _ RFull _ _ _ _ _ (strict_payer IHa) (ex_intro _ 0 Logic.I) E (map_nofuel _ Hnf)).
    - destruct (many1_w _ _ _ _ _) as [r1 n1] eqn:E. inversion H; subst. apply pays_map. exact (@loop_pays _ (RFrom 1) _ _ _ _ _ (strict_payer IHa) (ex_intro _ 1 (le_n 1)) E (map_nofuel _ Hnf)).
    - destruct (count_w _ _ _ _ _ _) as [r1 n1] eqn:E. inversion H; subst. apply pays_map. exact (@loop_pays _ (RExact m) _ _ _ _ _ (strict_payer IHa) (ex_intro _ m eq_refl) E (map_nofuel _ Hnf)).
    - destruct (sep_by1_w _ _ _ _ _ _ _) as [r1 n1] eqn:E. inversion H; subst. apply pays_map. apply sep_by1_w_sound in E; [|exact (map_nofuel _ Hnf)].
      refine (goes_pays _ E). intros [|k]; [exact (strict_payer IHa)|]. intros n0 i0 res0 n0' H0 Hn0. cbn [separated] in H0. unfold sep_then in H0.
      destruct (meter fuel b n0 i0) as [[j1 t1|y e|q| |] m1] eqn:F; try (inversion H0; subst; contradiction); (destruct (strict_payer IHb _ _ F) as [L1 L2]; [discriminate|]);
        [|inversion H0; subst; split; [lia|discriminate]..].
      eapply pays_then; [split; eassumption|reflexivity|]. exact (strict_payer IHa _ _ H0 Hn0).
  Qed.

  Lemma meter_pays : forall fuel e, strict fuel e.
  Proof.
    induction fuel as [|fuel IH]; apply meter_pays_at; intros k n i res n' H Hnf; rewrite meter_eq in H; [inversion H; subst; contradiction|].
    destruct (IH _ _ _ _ _ H Hnf) as [L P]. apply pays_later. exact P.
  Qed.
End Looked.
