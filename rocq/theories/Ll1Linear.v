(** Proofs for C74: LL(1) grammars are parsed in linear time. *)
From Coq Require Import List Bool Arith Lia.
From Verif Require Import Base Parsers Combinators SpecBase BaseProofs SpecPeg Peg PegProofs PegTotal SpecBnf BnfProofs PegMeter TimeProofs.
Import ListNotations.

Set Implicit Arguments.

(** * What is answered *)

Section Answers.
  Context {I : Type}.
  Variable eqb : I -> I -> bool.
  Variable g : nat -> peg I.
  Variable l : bool.
  Notation costs := (costs eqb g l).
  Notation laps := (laps eqb g l).
  Notation turns := (turns eqb g l).
  Notation derives := (derives eqb g).
  Notation steps := (steps eqb g).

  Definition derived (e : peg I) (s : list I) (r : answer I (tree I)) : Prop :=
    match r with
    | Yes t s1 => exists d, derives e s (Some (t, s1)) d
    | No => exists d, derives e s None d
    | Ask => True
    end.
  Definition derived_laps (a : peg I) (s : list I) (r : answer I (list (tree I))) : Prop :=
    match r with
    | Yes ts s1 => exists d1 d2, steps a s ts s1 d1 /\ derives a s1 None d2
    | No => False
    | Ask => True
    end.
  Definition derived_turns (n : nat) (a : peg I) (s : list I) (r : answer I (list (tree I))) : Prop :=
    match r with
    | Yes ts s1 => length ts = n /\ exists d, steps a s ts s1 d
    | No => exists ts s1 d1 d2, steps a s ts s1 d1 /\ length ts < n /\ derives a s1 None d2
    | Ask => True
    end.

  Lemma costs_derived :
    (forall e s r c, costs e s r c -> derived e s r) /\
    (forall a s r c, laps a s r c -> derived_laps a s r) /\
    (forall n a s r c, turns n a s r c -> derived_turns n a s r).
  Proof.
    apply costs_laps_turns_ind; unfold derived, derived_laps, derived_turns, over_end; intros;
      repeat match goal with
      | H : exists _, _ |- _ => destruct H
      | H : _ /\ _ |- _ => destruct H
      end; try exact Logic.I; try (eexists; econstructor; eassumption).
    - destruct l; [eexists; constructor|exact Logic.I].
    - destruct l; [|exact Logic.I]. eexists. apply d_lit_not. exact (H eq_refl).
    - destruct l; [|exact Logic.I]. eexists. apply d_run_end. assumption.
    - destruct r as [u s2| |]; cbn; try exact Logic.I; destruct H2 as (d & D); eexists; econstructor; eassumption.
    - destruct r as [u s2| |]; try exact Logic.I; destruct H2 as (d' & D); eexists; eapply d_then; eassumption.
    - destruct r as [u s2| |]; try exact Logic.I; destruct H2 as (d' & D); eexists; eapply d_alt2; eassumption.
    - destruct r as [u s2| |]; cbn; try exact Logic.I; [|contradiction]. destruct H0 as (d1 & d2 & D1 & D2). eexists. eapply d_star; eassumption.
    - destruct r as [u s2| |]; cbn; try exact Logic.I; [|contradiction]. destruct H2 as (d1 & d2 & D1 & D2). eexists. eapply d_plus; [eapply s_cons; eassumption|discriminate|eassumption].
    - destruct r as [u s2| |]; cbn; try exact Logic.I.
      + destruct H0 as (<- & d & D). eexists. eapply d_times; eassumption.
      + destruct H0 as (ts & s1 & d1 & d2 & D1 & Hl & D2). eexists. eapply d_times_not; eassumption.
    - destruct r as [u s2| |]; cbn; try exact Logic.I; [|contradiction]. destruct H2 as (d1 & d2 & D1 & D2). eexists. eapply d_sep; eassumption.
    - destruct r as [u s2| |]; try exact Logic.I; destruct H0 as (d' & D); eexists; eapply d_rule; eassumption.
    - eexists _, _. split; [constructor|eassumption].
    - destruct r as [u s2| |]; cbn; try exact Logic.I; [|contradiction]. destruct H2 as (d1 & d2 & D1 & D2). eexists _, _. split; [eapply s_cons; eassumption|eassumption].
    - split; [reflexivity|]. eexists. constructor.
    - exists [], s. eexists _, _. split; [constructor|]. split; [cbn; lia|eassumption].
    - destruct r as [u s2| |]; cbn; try exact Logic.I.
      + destruct H2 as (<- & d & D). split; [reflexivity|]. eexists. eapply s_cons; eassumption.
      + destruct H2 as (ts & s2 & d1 & d2 & D1 & Hl & D2). exists (t :: ts), s2. eexists _, _. split; [eapply s_cons; eassumption|]. split; [cbn; lia|eassumption].
  Qed.
End Answers.

(** * The weight of expressions *)

Fixpoint weight {I} (e : peg I) : nat :=
  match e with
  | Empty => 1
  | Sat _ => 2
  | Lit w => 2 + length w
  | Run _ => 3
  | Seq a b | Then a b | Alt a b => 1 + weight a + weight b
  | Opt a | Ahead a | Slice a => 1 + weight a
  | Star a => 1 + 3 * weight a
  | Plus a => 1 + 3 * weight a
  | Times n a => 1 + n * weight a
  | Sep a b => 1 + weight a + 3 * (1 + weight b + weight a)
  | Rule _ => 1
  end.

Definition idle {I T} (s : list I) (r : answer I T) (b c : nat) : Prop := c <= b /\ (r = No \/ r = Ask \/ exists t, r = Yes t s).
Definition heads {I} (P : I -> Prop) (s : list I) : Prop := exists c y, s = c :: y /\ P c.
Definition misses {I} (P : I -> Prop) (s : list I) : Prop := follows (fun c => ~ P c) s.

(** * Putting outcomes together *)

Section Outcomes.
  Context {I : Type}.
  Variable D : nat.
  Let A := 4 * D.

  (** What parsing at [s] may come to, where [F] are the items which may follow and [st] those which a phrase starts with: next to nothing is done; a phrase is
      read, at a price proportional to its length; or an error has been found, and will be before anything more is read. *)
  Definition outcome {T} (F st : I -> Prop) (ib b : nat) (s : list I) (r : answer I T) (c : nat) : Prop :=
    idle s r ib c \/
    (exists t x s1, r = Yes t s1 /\ s = x ++ s1 /\ x <> [] /\ heads st s /\ c + A <= A * length x + b) \/
    (exists t x s1, r = Yes t s1 /\ s = x ++ s1 /\ misses F s1 /\ heads st s /\
       ((x = [] /\ c <= A * length s + 2 * D + b) \/ (x <> [] /\ c <= A * length s + b))) \/
    (r = No /\ heads st s /\ c <= A * length s + 2 * D + b) \/
    (r = Ask /\ c <= A * length s + 2 * D + b).

  Lemma outcome_map : forall T U (f : T -> U) F st ib b s (r : answer I T) c, outcome F st ib b s r c -> outcome F st ib b s (amap f r) c.
  Proof.
    intros T U f F st ib b s r c [[H1 H2]|[H|[H|[H|H]]]].
    - left. split; [assumption|]. destruct H2 as [->|[->|(t & ->)]]; cbn; eauto.
    - destruct H as (t & x & s1 & -> & H). right; left. exists (f t), x, s1. split; [reflexivity|assumption].
    - destruct H as (t & x & s1 & -> & H). right; right; left. exists (f t), x, s1. split; [reflexivity|assumption].
    - destruct H as (-> & H). right; right; right; left. split; [reflexivity|assumption].
    - destruct H as (-> & H). right; right; right; right. split; [reflexivity|assumption].
  Qed.
  Lemma idle_map : forall T U (f : T -> U) s (r : answer I T) b c, idle s r b c -> idle s (amap f r) b c.
  Proof. intros T U f s r b c [H1 H2]. split; [assumption|]. destruct H2 as [->|[->|(t & ->)]]; cbn; eauto. Qed.
  Lemma idle_more : forall T s (r : answer I T) b c b' c', idle s r b c -> (c <= b -> c' <= b') -> idle s r b' c'.
  Proof. intros T s r b c b' c' [H1 H2] H. split; auto. Qed.

  Lemma outcome_more : forall T (F F' st st' : I -> Prop) ib b ib' b' s (r : answer I T) c d, outcome F st ib b s r c ->
    (forall x, st x -> st' x) -> (forall x, F' x -> F x) -> d + ib <= ib' -> d + b <= b' -> outcome F' st' ib' b' s r (d + c).
  Proof.
    intros T F F' st st' ib b ib' b' s r c d H Hst HF Hi Hb.
    assert (Hh : forall s, heads st s -> heads st' s) by (intros u (x & y & E & Hx); exists x, y; auto).
    assert (Hm : forall s, misses F s -> misses F' s) by (intros [|x u] Hx; [exact Logic.I|]; cbn in *; auto).
    destruct H as [H|[(t & x & s1 & E & Es & Hx & Hs & Hc)|[(t & x & s1 & E & Es & Hf & Hs & Hc)|[(E & Hs & Hc)|(E & Hc)]]]].
    - left. eapply idle_more; [eassumption|]. lia.
    - right; left. exists t, x, s1. repeat split; auto. lia.
    - right; right; left. exists t, x, s1. repeat split; auto. destruct Hc as [[Hx Hc]|[Hx Hc]]; [left|right]; (split; [assumption|lia]).
    - right; right; right; left. repeat split; auto. lia.
    - right; right; right; right. split; auto. lia.
  Qed.

  Lemma outcome_seq : forall T U (Fa F sta stb st : I -> Prop) d iba ba ibb bb ibR bR ib b s (t : T) s1 (rb : answer I U) c1 c2,
    outcome Fa sta iba ba s (Yes t s1) c1 ->
    (s1 = s -> outcome F stb ibb bb s rb c2 /\ (misses stb s -> idle s rb ibb c2) /\ d + iba + ibb <= ib /\ d + iba + bb <= b /\ d + ba + ibb <= b /\ (forall x, stb x -> st x)) ->
    (s1 <> s -> outcome F stb ibR bR s1 rb c2 /\ (misses stb s1 -> idle s1 rb ibR c2) /\ d + ba + ibR <= b /\ d + bR <= 2 * D) ->
    (forall x, sta x -> st x) -> (forall x, stb x -> Fa x) -> (forall u, rb = Yes u s1 -> forall x, F x -> Fa x) ->
    outcome F st ib b s rb (d + c1 + c2).
  Proof.
    intros T U Fa F sta stb st d iba ba ibb bb ibR bR ib b s t s1 rb c1 c2 Ha H0 H1 Hst HFb HF.
    assert (Hha : forall s, heads sta s -> heads st s) by (intros u (x & y & E & Hx); exists x, y; auto).
    assert (Hne : forall x : list I, x <> [] -> s = x ++ s1 -> s1 <> s).
    { intros x Hx -> E. apply (f_equal (@length _)) in E. rewrite app_length in E. destruct x; [contradiction|]. cbn in E. lia. }
    destruct Ha as [[Hc [E|[E|(t' & E)]]]|[(t' & x & s1' & E & Es & Hx & Hs & Hc)|[(t' & x & s1' & E & Es & Hf & Hs & Hc)|[(E & Hs & Hc)|(E & Hc)]]]]; try discriminate; injection E as Et E1; subst t'.
    - (* nothing done *) destruct (H0 E1) as (Hb & _ & L1 & L2 & _ & Hsb). 
      replace (d + c1 + c2) with ((d + c1) + c2) by lia. eapply outcome_more; [exact Hb|assumption|auto| |]; lia.
    - (* a phrase read *) subst s1'. pose proof (Hne x Hx Es) as Hn. destruct (H1 Hn) as (Hb & _ & L1 & L2). assert (Hl : length s = length x + length s1) by (rewrite Es; apply app_length).
      assert (Hm : A * length s = A * length x + A * length s1) by (rewrite Hl; apply Nat.mul_add_distr_l).
      destruct Hb as [[Hc2 [->|[->|(u & ->)]]]|[(u & y & s2 & -> & Es2 & Hy & Hs2 & Hc2)|[(u & y & s2 & -> & Es2 & Hf & Hs2 & Hc2)|[(-> & Hs2 & Hc2)|(-> & Hc2)]]]].
      + right; right; right; left. repeat split; auto. lia.
      + right; right; right; right. split; auto. lia.
      + right; left. exists u, x, s1. repeat split; auto. lia.
      + right; left. exists u, (x ++ y), s2. rewrite <- app_assoc, <- Es2. repeat split; auto; [destruct x; [contradiction|discriminate]|].
        rewrite app_length, Nat.mul_add_distr_l. unfold A in *. lia.
      + right; right; left. exists u, (x ++ y), s2. rewrite <- app_assoc, <- Es2. repeat split; auto. right. split; [destruct x; [contradiction|discriminate]|]. unfold A in *. destruct Hc2 as [[_ Hc2]|[_ Hc2]]; lia.
      + right; right; right; left. repeat split; auto. unfold A in *. lia.
      + right; right; right; right. split; auto. unfold A in *. lia.
    - (* an error found *) subst s1'. assert (Hmb : misses stb s1) by (destruct s1 as [|y s1]; [exact Logic.I|]; cbn in *; auto).
      assert (Hmf : (exists u, rb = Yes u s1) -> misses F s1) by (intros (u & Eu); destruct s1 as [|y s1]; [exact Logic.I|]; cbn in *; eauto).
      assert (Hb : idle s1 rb (b - d - ba) c2 /\ d + ba <= b).
      { destruct x as [|y x].
        - cbn in Es. subst s1. destruct (H0 eq_refl) as (_ & Hi & _ & _ & L & _). specialize (Hi Hmb). split; [|lia]. eapply idle_more; [exact Hi|]. lia.
        - assert (Hn : s1 <> s) by (apply (Hne (y :: x)); [discriminate|assumption]). destruct (H1 Hn) as (_ & Hi & L & _). specialize (Hi Hmb). split; [|lia]. eapply idle_more; [exact Hi|]. lia. }
      destruct Hb as [[Hc2 [->|[->|(u & ->)]]] L].
      + right; right; right; left. repeat split; auto. destruct Hc as [[_ Hc]|[_ Hc]]; lia.
      + right; right; right; right. split; auto. destruct Hc as [[_ Hc]|[_ Hc]]; lia.
      + right; right; left. exists u, x, s1. repeat split; auto; [apply Hmf; eauto|]. destruct Hc as [[Hx Hc]|[Hx Hc]]; [left|right]; (split; [assumption|lia]).
  Qed.

  (** [rb] is tried after an answer [No] at the same place. *)
  Lemma outcome_alt : forall T U (Fa F sta stb st : I -> Prop) d iba ba ibb bb ib b s (rb : answer I U) c1 c2,
    outcome Fa sta iba ba s (@No I T) c1 -> outcome F stb ibb bb s rb c2 -> (heads sta s -> idle s rb ibb c2) ->
    d + iba + ibb <= ib -> d + iba + bb <= b -> d + ba + ibb <= b ->
    (forall x, sta x -> st x) -> (forall x, stb x -> st x) -> (forall u, rb = Yes u s -> heads sta s -> misses F s) ->
    outcome F st ib b s rb (d + c1 + c2).
  Proof.
    intros T U Fa F sta stb st d iba ba ibb bb ib b s rb c1 c2 Ha Hb Hi L1 L2 L3 Hsa Hsb HF.
    assert (Hha : forall s, heads sta s -> heads st s) by (intros u (x & y & E & Hx); exists x, y; auto).
    destruct Ha as [[Hc _]|[(t' & x & s1' & E & _)|[(t' & x & s1' & E & _)|[(E & Hs & Hc)|(E & Hc)]]]]; try discriminate.
    - replace (d + c1 + c2) with ((d + c1) + c2) by lia. eapply outcome_more; [exact Hb|assumption|auto| |]; lia.
    - destruct (Hi Hs) as [Hc2 [->|[->|(u & ->)]]].
      + right; right; right; left. repeat split; auto. lia.
      + right; right; right; right. split; auto. lia.
      + right; right; left. exists u, [], s. repeat split; auto; [eapply HF; [reflexivity|assumption]|]. left. split; [reflexivity|lia].
  Qed.
End Outcomes.

(** * LL(1) grammars *)

Section Linear.
  Context {I : Type}.
  Variable eqb : I -> I -> bool.
  Variable g : nat -> peg I.
  Variable nul : nat -> bool.
  Variable rank : nat -> nat.
  Variable follow : nat -> I -> Prop.
  Variable k0 : nat.
  Hypothesis Hg : ll1_grammar eqb nul rank follow k0 g.
  (** The largest rule, and more than the largest rank. *)
  Variable m : nat.
  Hypothesis Hm : forall n, weight (g n) <= m.
  Variable R : nat.
  Hypothesis HR : forall n, rank n < R.
  Variable l : bool.
  Notation costs := (costs eqb g l).
  Notation laps := (laps eqb g l).
  Notation turns := (turns eqb g l).
  Notation starts := (starts eqb g nul).
  Notation ll1 := (ll1 eqb g nul follow).
  Notation good := (good nul rank).
  Notation apart := (apart eqb g nul).
  Let Hwf : well_formed nul rank g := lg_well_formed Hg.

  (** What the rules below [k] cost while nothing is read. *)
  Fixpoint still (k : nat) : nat := match k with 0 => 1 | S k => 1 + m * still k end.
  Lemma still_pos : forall k, 1 <= still k.
  Proof. destruct k; cbn; lia. Qed.
  Lemma still_up : forall k, still k <= still (S k).
  Proof.
    intros k. destruct m as [|m'] eqn:Em; [|cbn; rewrite Em; pose proof (still_pos k); nia].
    destruct k; cbn; rewrite Em; cbn; lia.
  Qed.
  Lemma still_mono : forall k k', k <= k' -> still k <= still k'.
  Proof. induction 1; [lia|]. pose proof (still_up m0). lia. Qed.

  Lemma rule_below : forall n k, rank n < k -> 1 + weight (g n) * still (rank n) <= still k.
  Proof.
    intros n k H. pose proof (still_mono H) as H2. cbn [still] in H2. pose proof (Hm n). pose proof (Nat.mul_le_mono_r _ _ (still (rank n)) H0). lia.
  Qed.

  Lemma costs_here : forall e s t c, costs e s (Yes t s) c -> may_empty nul e = true.
  Proof. intros e s t c C. destruct (proj1 (costs_derived eqb g l) _ _ _ _ C) as (d & Dd). exact (derives_here Hg Dd). Qed.

  Lemma apart_idle :
    (forall e s r c, costs e s r c -> forall k, apart e s -> good (Some k) e -> idle s r (weight e * still k) c) /\
    (forall a s r c, laps a s r c -> forall k, apart a s -> good (Some k) a -> may_empty nul a = false -> idle s r (weight a * still k) c) /\
    (forall n a s r c, turns n a s r c -> forall k, apart a s -> good (Some k) a -> idle s r (n * weight a * still k) c).
  Proof.
    assert (HS : forall (e : peg I) b s, apart e s -> (forall x, starts b x -> starts e x) -> apart b s) by (intros; eapply apart_sub; eassumption).
    assert (HY : forall T (t : T) s b c, c <= b -> idle s (@Yes I T t s) b c) by (intros; split; [assumption|right; right; eexists; reflexivity]).
    assert (HN : forall T (s : list I) b c, c <= b -> idle s (@No I T) b c) by (intros; split; [assumption|left; reflexivity]).
    assert (HA : forall T (s : list I) b c, c <= b -> idle s (@Ask I T) b c) by (intros; split; [assumption|right; left; reflexivity]).
    assert (HO : forall T (s : list I) b c, c <= b -> idle s (@over_end I l T) b c) by (intros; unfold over_end; destruct l; auto).
    assert (HU : forall T (t : T) s s1 b c, idle s (@Yes I T t s1) b c -> s1 = s /\ c <= b).
    { intros T t s s1 b c [L [E|[E|(t' & E)]]]; try discriminate. inversion E; subst. auto. }
    assert (HL : forall T s (r : answer I T) b c, idle s r b c -> c <= b) by (intros T s r b c [L _]; exact L).
    apply costs_laps_turns_ind; cbn [weight SpecPeg.good].
    - (* Empty *) intros s k _ _. apply HY. pose proof (still_pos k). lia.
    - (* Sat *) intros f x s Hx k Ha _. exfalso. apply Ha. constructor. assumption.
    - intros f x s Hx k Ha _. apply HN. pose proof (still_pos k). lia.
    - intros f k Ha _. apply HO. pose proof (still_pos k). lia.
    - (* Lit *) intros w x s Hw k Ha _. destruct Hw as [|a c w x Hac Hw]; [apply HY; pose proof (still_pos k); cbn; lia|]. exfalso. apply Ha. constructor. assumption.
    - intros w s Hw k Ha _. apply HN. pose proof (still_pos k). nia.
    - intros w s Hw k Ha _. apply HO. pose proof (still_pos k). nia.
    - (* Run *) intros f x c s Hx Hc k Ha _. destruct Hx as [|c1 x Hc1 Hx]; [apply HY; pose proof (still_pos k); cbn; lia|]. exfalso. apply Ha. constructor. assumption.
    - intros f x Hx k Ha _. pose proof (still_pos k). destruct Hx as [|c1 x Hc1 Hx]; [destruct l; [apply HY|apply HA]; cbn; lia|]. exfalso. apply Ha. constructor. assumption.
    - (* Seq *) intros a b s t s1 c1 r c2 Ca IHa Cb IHb k Ha [Ga Gb]. pose proof (still_pos k). destruct (HU _ _ _ _ _ _ (IHa k (HS _ _ _ Ha (@st_seq1 _ _ _ _ a b)) Ga)) as [-> L1].
      pose proof (costs_here Ca) as Ea. rewrite Ea in Gb. apply idle_map. eapply idle_more; [apply (IHb k (HS _ _ _ Ha (fun x => @st_seq2 _ _ _ _ a b x Ea)) Gb)|]. nia.
    - intros a b s c Ca IHa k Ha [Ga Gb]. pose proof (still_pos k). apply HN. pose proof (HL _ _ _ _ _ (IHa k (HS _ _ _ Ha (@st_seq1 _ _ _ _ a b)) Ga)). nia.
    - intros a b s c Ca IHa k Ha [Ga Gb]. pose proof (still_pos k). apply HA. pose proof (HL _ _ _ _ _ (IHa k (HS _ _ _ Ha (@st_seq1 _ _ _ _ a b)) Ga)). nia.
    - (* Then *) intros a b s t s1 c1 r c2 Ca IHa Cb IHb k Ha [Ga Gb]. pose proof (still_pos k). destruct (HU _ _ _ _ _ _ (IHa k (HS _ _ _ Ha (@st_then1 _ _ _ _ a b)) Ga)) as [-> L1].
      pose proof (costs_here Ca) as Ea. rewrite Ea in Gb. eapply idle_more; [apply (IHb k (HS _ _ _ Ha (fun x => @st_then2 _ _ _ _ a b x Ea)) Gb)|]. nia.
    - intros a b s c Ca IHa k Ha [Ga Gb]. pose proof (still_pos k). apply HN. pose proof (HL _ _ _ _ _ (IHa k (HS _ _ _ Ha (@st_then1 _ _ _ _ a b)) Ga)). nia.
    - intros a b s c Ca IHa k Ha [Ga Gb]. pose proof (still_pos k). apply HA. pose proof (HL _ _ _ _ _ (IHa k (HS _ _ _ Ha (@st_then1 _ _ _ _ a b)) Ga)). nia.
    - (* Alt *) intros a b s t s1 c Ca IHa k Ha [Ga Gb]. pose proof (still_pos k). eapply idle_more; [apply (IHa k (HS _ _ _ Ha (@st_alt1 _ _ _ _ a b)) Ga)|]. nia.
    - intros a b s c1 r c2 Ca IHa Cb IHb k Ha [Ga Gb]. pose proof (still_pos k). pose proof (HL _ _ _ _ _ (IHa k (HS _ _ _ Ha (@st_alt1 _ _ _ _ a b)) Ga)).
      eapply idle_more; [apply (IHb k (HS _ _ _ Ha (@st_alt2 _ _ _ _ a b)) Gb)|]. nia.
    - intros a b s c Ca IHa k Ha [Ga Gb]. pose proof (still_pos k). apply HA. pose proof (HL _ _ _ _ _ (IHa k (HS _ _ _ Ha (@st_alt1 _ _ _ _ a b)) Ga)). nia.
    - (* Opt *) intros a s t s1 c Ca IHa k Ha Ga. pose proof (still_pos k). eapply idle_more; [apply (IHa k (HS _ _ _ Ha (@st_opt _ _ _ _ a)) Ga)|]. nia.
    - intros a s c Ca IHa k Ha Ga. pose proof (still_pos k). apply HY. pose proof (HL _ _ _ _ _ (IHa k (HS _ _ _ Ha (@st_opt _ _ _ _ a)) Ga)). nia.
    - intros a s c Ca IHa k Ha Ga. pose proof (still_pos k). apply HA. pose proof (HL _ _ _ _ _ (IHa k (HS _ _ _ Ha (@st_opt _ _ _ _ a)) Ga)). nia.
    - (* Ahead *) intros a s t s1 c Ca IHa k Ha Ga. pose proof (still_pos k). apply HY. pose proof (HL _ _ _ _ _ (IHa k (HS _ _ _ Ha (@st_ahead _ _ _ _ a)) Ga)). nia.
    - intros a s c Ca IHa k Ha Ga. pose proof (still_pos k). apply HN. pose proof (HL _ _ _ _ _ (IHa k (HS _ _ _ Ha (@st_ahead _ _ _ _ a)) Ga)). nia.
    - intros a s c Ca IHa k Ha Ga. pose proof (still_pos k). apply HA. pose proof (HL _ _ _ _ _ (IHa k (HS _ _ _ Ha (@st_ahead _ _ _ _ a)) Ga)). nia.
    - (* Slice *) intros a x t s1 c Ca IHa k Ha Ga. pose proof (still_pos k). destruct (HU _ _ _ _ _ _ (IHa k (HS _ _ _ Ha (@st_slice _ _ _ _ a)) Ga)) as [E L].
      rewrite E at 2. rewrite <- E at 1. rewrite <- E. apply HY. nia.
    - intros a s c Ca IHa k Ha Ga. pose proof (still_pos k). apply HN. pose proof (HL _ _ _ _ _ (IHa k (HS _ _ _ Ha (@st_slice _ _ _ _ a)) Ga)). nia.
    - intros a s c Ca IHa k Ha Ga. pose proof (still_pos k). apply HA. pose proof (HL _ _ _ _ _ (IHa k (HS _ _ _ Ha (@st_slice _ _ _ _ a)) Ga)). nia.
    - (* Star *) intros a s r c Ca IHa k Ha [Ea Ga]. pose proof (still_pos k). apply idle_map. eapply idle_more; [apply (IHa k (HS _ _ _ Ha (@st_star _ _ _ _ a)) Ga Ea)|]. nia.
    - (* Plus *) intros a s t s1 c1 r c2 Ca IHa Cb IHb k Ha [Ea Ga]. destruct (HU _ _ _ _ _ _ (IHa k (HS _ _ _ Ha (@st_plus _ _ _ _ a)) Ga)) as [-> L1].
      rewrite (costs_here Ca) in Ea. discriminate.
    - intros a s c Ca IHa k Ha [Ea Ga]. pose proof (still_pos k). apply HN. pose proof (HL _ _ _ _ _ (IHa k (HS _ _ _ Ha (@st_plus _ _ _ _ a)) Ga)). nia.
    - intros a s c Ca IHa k Ha [Ea Ga]. pose proof (still_pos k). apply HA. pose proof (HL _ _ _ _ _ (IHa k (HS _ _ _ Ha (@st_plus _ _ _ _ a)) Ga)). nia.
    - (* Times *) intros n a s r c Ca IHa k Ha Ga. pose proof (still_pos k). apply idle_map. eapply idle_more; [apply (IHa k (HS _ _ _ Ha (@st_times _ _ _ _ n a)) Ga)|]. nia.
    - (* Sep *) intros a b s t s1 c1 r c2 Ca IHa Cb IHb k Ha (Ee & Ga & Gb). pose proof (still_pos k). destruct (HU _ _ _ _ _ _ (IHa k (HS _ _ _ Ha (@st_sep1 _ _ _ _ a b)) Ga)) as [-> L1].
      pose proof (costs_here Ca) as Ea. rewrite Ea in Gb, Ee. cbn in Ee. do 2 apply idle_map.
      assert (Hba : apart (Then b a) s).
      { eapply HS; [exact Ha|]. intros x Hx. inversion Hx; subst; [apply st_sep2; assumption|apply st_sep1; assumption]. }
      eapply idle_more; [apply (IHb k Hba)|]; cbn [weight SpecPeg.good may_empty]; rewrite ?Ee; try reflexivity; [split; [assumption|eapply good_none; eassumption]|]. nia.
    - intros a b s c Ca IHa k Ha (Ee & Ga & Gb). pose proof (still_pos k). apply HN. pose proof (HL _ _ _ _ _ (IHa k (HS _ _ _ Ha (@st_sep1 _ _ _ _ a b)) Ga)). nia.
    - intros a b s c Ca IHa k Ha (Ee & Ga & Gb). pose proof (still_pos k). apply HA. pose proof (HL _ _ _ _ _ (IHa k (HS _ _ _ Ha (@st_sep1 _ _ _ _ a b)) Ga)). nia.
    - (* Rule *) intros n s r c Ca IHa k Ha Hk. eapply idle_more; [apply (IHa (rank n) (HS _ _ _ Ha (@st_rule _ _ _ _ n))); apply Hwf|]. pose proof (rule_below Hk). lia.
    - (* laps *) intros a s c Ca IHa k Ha Ga Ea. apply HY. exact (HL _ _ _ _ _ (IHa k Ha Ga)).
    - intros a s c Ca IHa k Ha Ga Ea. apply HA. exact (HL _ _ _ _ _ (IHa k Ha Ga)).
    - intros a s t s1 c1 r c2 Ca IHa Cb IHb k Ha Ga Ea. destruct (HU _ _ _ _ _ _ (IHa k Ha Ga)) as [-> L1]. rewrite (costs_here Ca) in Ea. discriminate.
    - (* turns *) intros a s k Ha Ga. apply HY. lia.
    - intros n a s c Ca IHa k Ha Ga. apply HN. pose proof (HL _ _ _ _ _ (IHa k Ha Ga)). nia.
    - intros n a s c Ca IHa k Ha Ga. apply HA. pose proof (HL _ _ _ _ _ (IHa k Ha Ga)). nia.
    - intros n a s t s1 c1 r c2 Ca IHa Cb IHb k Ha Ga. destruct (HU _ _ _ _ _ _ (IHa k Ha Ga)) as [-> L1]. apply idle_map. eapply idle_more; [apply (IHb k Ha Ga)|]. nia.
  Qed.

  (** * The price of what is read *)

  Lemma weight_pos : forall e : peg I, 1 <= weight e.
  Proof. destruct e; cbn; lia. Qed.
  Lemma m_pos : 1 <= m.
  Proof. pose proof (Hm 0). pose proof (weight_pos (g 0)). lia. Qed.

  (** What the rules below [k] cost while something is read. *)
  Fixpoint going (k : nat) : nat := match k with 0 => S (still R) | S k => 1 + m * going k end.
  Lemma going_up : forall k, going k <= going (S k).
  Proof. intros k. cbn. pose proof m_pos. nia. Qed.
  Lemma going_mono : forall k k', k <= k' -> going k <= going k'.
  Proof. induction 1; [lia|]. pose proof (going_up m0). lia. Qed.
  Lemma going_still : forall k, S (still R) <= going k.
  Proof. intros k. apply (going_mono (Nat.le_0_l k)). Qed.
  Lemma rule_going : forall n k, rank n < k -> 1 + weight (g n) * going (rank n) <= going k.
  Proof.
    intros n k H. pose proof (going_mono H) as H2. cbn [going] in H2. pose proof (Nat.mul_le_mono_r _ _ (going (rank n)) (Hm n)). lia.
  Qed.

  Lemma good_top : forall (e : peg I) o, good o e -> good (Some R) e.
  Proof.
    assert (Hif : forall (b : bool) (e : peg I), good (Some R) e -> good (if b then Some R else None) e) by (intros [|] e H; [assumption|eapply good_none; eassumption]).
    induction e; intros o H; cbn [SpecPeg.good] in *; intuition eauto.
  Qed.

  Variable M : nat.
  Hypothesis HmM : m <= M.
  Let D := M * going R.

  Lemma below_D : forall w k, k <= R -> w <= M -> w * going k <= D.
  Proof. intros w k Hk Hw. unfold D. apply Nat.mul_le_mono; [assumption|apply going_mono; assumption]. Qed.
  Lemma D_pos : 2 <= D.
  Proof. unfold D. pose proof (going_still R). pose proof (still_pos R). pose proof m_pos. nia. Qed.

  Lemma ll1_linear :
    (forall e s r c, costs e s r c -> forall F k, k <= R -> ll1 F e -> good (Some k) e -> weight e <= M ->
       outcome D F (starts e) (weight e * still k) (weight e * going k) s r c) /\
    (forall a s r c, laps a s r c -> forall (F : I -> Prop) k, k <= R -> (forall x, F x -> ~ starts a x) -> ll1 (fun x => starts a x \/ F x) a -> good (Some k) a ->
       may_empty nul a = false -> 3 * weight a <= M -> outcome D F (starts a) (weight a * still k) (2 * weight a * going k) s r c) /\
    (forall n a s r c, turns n a s r c -> forall (F : I -> Prop) k, k <= R -> ll1 (fun x => starts a x \/ F x) a -> good (Some k) a -> n * weight a <= M ->
       outcome D F (starts a) (n * weight a * still k) (n * weight a * going k) s r c).
  Proof.
    pose proof D_pos as HD.
    assert (HK : forall k, k <= R -> 1 <= still k /\ still k <= still R /\ S (still R) <= going k /\ going k <= going R /\ going R <= D).
    { intros k Hk. repeat split; [apply still_pos|apply still_mono; assumption|apply going_still|apply going_mono; assumption|].
      pose proof (@below_D 1 R (le_n _)). pose proof m_pos. lia. }
    assert (HY : forall T (t : T) F st s ib b c, c <= ib -> outcome D F st ib b s (@Yes I T t s) c) by (intros; left; split; [assumption|right; right; eexists; reflexivity]).
    assert (HN : forall T F st (s : list I) ib b c, c <= ib -> outcome D F st ib b s (@No I T) c) by (intros; left; split; [assumption|left; reflexivity]).
    assert (HA : forall T F st (s : list I) ib b c, c <= ib -> outcome D F st ib b s (@Ask I T) c) by (intros; left; split; [assumption|right; left; reflexivity]).
    assert (HO : forall T F st (s : list I) ib b c, c <= ib -> outcome D F st ib b s (@over_end I l T) c) by (intros; unfold over_end; destruct l; auto).
    (* An answer other than [Yes], passed on. *)
    assert (Hpass : forall T U (Fa F sta st : I -> Prop) iba ba ib b s c, outcome D Fa sta iba ba s (@No I T) c -> (forall x, sta x -> st x) -> 1 + iba <= ib -> 1 + ba <= b ->
      outcome D F st ib b s (@No I U) (1 + c)).
    { intros T U Fa F sta st iba ba ib b s c Ha Hst L1 L2. destruct Ha as [[Hc _]|[(t' & x & s1' & E & _)|[(t' & x & s1' & E & _)|[(E & (x & y & Es & Hx) & Hc)|(E & Hc)]]]]; try discriminate.
      - apply HN. lia.
      - right; right; right; left. split; [reflexivity|]. split; [exists x, y; auto|lia]. }
    assert (Hask : forall T U (Fa F sta st : I -> Prop) iba ba ib b s c, outcome D Fa sta iba ba s (@Ask I T) c -> 1 + iba <= ib -> 1 + ba <= b ->
      outcome D F st ib b s (@Ask I U) (1 + c)).
    { intros T U Fa F sta st iba ba ib b s c Ha L1 L2. destruct Ha as [[Hc _]|[(t' & x & s1' & E & _)|[(t' & x & s1' & E & _)|[(E & Hc)|(E & Hc)]]]]; try discriminate.
      - apply HA. lia.
      - right; right; right; right. split; [reflexivity|lia]. }
    apply costs_laps_turns_ind; cbn [weight SpecPeg.good SpecBnf.ll1].
    - (* Empty *) intros s F k Hk _ _ _. apply HY. destruct (HK k Hk). lia.
    - (* Sat *) intros f x s Hx F k Hk _ _ _. destruct (HK k Hk) as (K1 & K2 & K3 & K4 & K5). right; left. exists (One x), [x], s. repeat split; [discriminate|exists x, s; split; [reflexivity|constructor; assumption]|cbn [length]; lia].
    - intros f x s Hx F k Hk _ _ _. apply HN. destruct (HK k Hk). lia.
    - intros f F k Hk _ _ _. apply HO. destruct (HK k Hk). lia.
    - (* Lit *) intros w x s Hw F k Hk _ _ _. destruct (HK k Hk) as (K1 & K2 & K3 & K4 & K5). pose proof (same_items_length Hw) as Hl. destruct Hw as [|a c w x Hac Hw]; [apply HY; cbn; lia|].
      right; left. exists (Span (c :: x)), (c :: x), s. repeat split; [discriminate|exists c, (x ++ s); split; [reflexivity|constructor; assumption]|]. cbn [length] in *. nia.
    - intros w s Hw F k Hk _ _ _. apply HN. destruct (HK k Hk). nia.
    - intros w s Hw F k Hk _ _ _. apply HO. destruct (HK k Hk). nia.
    - (* Run *) intros f x c s Hx Hc F k Hk _ _ _. destruct (HK k Hk) as (K1 & K2 & K3 & K4 & K5). destruct Hx as [|c1 x Hc1 Hx]; [apply HY; cbn; lia|].
      right; left. exists (Span (c1 :: x)), (c1 :: x), (c :: s). repeat split; [discriminate|exists c1, (x ++ c :: s); split; [reflexivity|constructor; assumption]|]. cbn [length]. nia.
    - intros f x Hx F k Hk _ _ _. destruct (HK k Hk) as (K1 & K2 & K3 & K4 & K5). destruct l.
      + destruct Hx as [|c1 x Hc1 Hx]; [apply HY; cbn; lia|]. right; left. exists (Span (c1 :: x)), (c1 :: x), []. rewrite app_nil_r.
        repeat split; [discriminate|exists c1, x; split; [reflexivity|constructor; assumption]|]. cbn [length]. nia.
      + right; right; right; right. split; [reflexivity|]. nia.
    - (* Seq *) intros a b s t s1 c1 r c2 Ca IHa Cb IHb F k Hk [La Lb] [Ga Gb] HW. destruct (HK k Hk) as (K1 & K2 & K3 & K4 & K5). apply outcome_map.
      eapply outcome_seq with (d := 1) (ibb := weight b * still k) (bb := weight b * going k) (ibR := weight b * still R) (bR := weight b * going R) (stb := starts b);
        [apply (IHa _ k Hk La Ga); lia| | |apply st_seq1|intros x Hx; left; exact Hx|].
      + intros ->. pose proof (costs_here Ca) as Ea. rewrite Ea in Gb. split; [apply (IHb F k Hk Lb Gb); lia|]. split; [intros Ha; exact (proj1 apart_idle _ _ _ _ Cb k Ha Gb)|].
        repeat split; try nia. intros x Hx. apply st_seq2; assumption.
      + intros Hn. pose proof (good_top _ _ Gb) as Gb2. split; [apply (IHb F R (le_n _) Lb Gb2); lia|]. split; [intros Ha; exact (proj1 apart_idle _ _ _ _ Cb R Ha Gb2)|].
        pose proof (@below_D (weight b) R (le_n _)). split; nia.
      + intros u -> x Hx. right. split; [exact (costs_here Cb)|exact Hx].
    - intros a b s c Ca IHa F k Hk [La Lb] [Ga Gb] HW. destruct (HK k Hk) as (K1 & K2 & K3 & K4 & K5). eapply Hpass; [apply (IHa _ k Hk La Ga); lia|apply st_seq1|nia|nia].
    - intros a b s c Ca IHa F k Hk [La Lb] [Ga Gb] HW. destruct (HK k Hk) as (K1 & K2 & K3 & K4 & K5). eapply Hask; [apply (IHa _ k Hk La Ga); lia|nia|nia].
    - (* Then *) intros a b s t s1 c1 r c2 Ca IHa Cb IHb F k Hk [La Lb] [Ga Gb] HW. destruct (HK k Hk) as (K1 & K2 & K3 & K4 & K5).
      eapply outcome_seq with (d := 1) (ibb := weight b * still k) (bb := weight b * going k) (ibR := weight b * still R) (bR := weight b * going R) (stb := starts b);
        [apply (IHa _ k Hk La Ga); lia| | |apply st_then1|intros x Hx; left; exact Hx|].
      + intros ->. pose proof (costs_here Ca) as Ea. rewrite Ea in Gb. split; [apply (IHb F k Hk Lb Gb); lia|]. split; [intros Ha; exact (proj1 apart_idle _ _ _ _ Cb k Ha Gb)|].
        repeat split; try nia. intros x Hx. apply st_then2; assumption.
      + intros Hn. pose proof (good_top _ _ Gb) as Gb2. split; [apply (IHb F R (le_n _) Lb Gb2); lia|]. split; [intros Ha; exact (proj1 apart_idle _ _ _ _ Cb R Ha Gb2)|].
        pose proof (@below_D (weight b) R (le_n _)). split; nia.
      + intros u -> x Hx. right. split; [exact (costs_here Cb)|exact Hx].
    - intros a b s c Ca IHa F k Hk [La Lb] [Ga Gb] HW. destruct (HK k Hk) as (K1 & K2 & K3 & K4 & K5). eapply Hpass; [apply (IHa _ k Hk La Ga); lia|apply st_then1|nia|nia].
    - intros a b s c Ca IHa F k Hk [La Lb] [Ga Gb] HW. destruct (HK k Hk) as (K1 & K2 & K3 & K4 & K5). eapply Hask; [apply (IHa _ k Hk La Ga); lia|nia|nia].
    - (* Alt *) intros a b s t s1 c Ca IHa F k Hk (Ea & Hd & Hf & La & Lb) [Ga Gb] HW. destruct (HK k Hk) as (K1 & K2 & K3 & K4 & K5).
      eapply outcome_more; [apply (IHa _ k Hk La Ga); lia|apply st_alt1|auto|nia|nia].
    - intros a b s c1 r c2 Ca IHa Cb IHb F k Hk (Ea & Hd & Hf & La & Lb) [Ga Gb] HW. destruct (HK k Hk) as (K1 & K2 & K3 & K4 & K5).
      eapply outcome_alt with (d := 1) (sta := starts a) (stb := starts b); [apply (IHa _ k Hk La Ga); lia|apply (IHb _ k Hk Lb Gb); lia| |nia|nia|nia|apply st_alt1|apply st_alt2|].
      + intros (x & y & -> & Hx). apply (proj1 apart_idle _ _ _ _ Cb k); [exact (Hd x Hx)|assumption].
      + intros u -> (x & y & -> & Hx). cbn. intros HFx. exact (Hf (costs_here Cb) x HFx Hx).
    - intros a b s c Ca IHa F k Hk (Ea & Hd & Hf & La & Lb) [Ga Gb] HW. destruct (HK k Hk) as (K1 & K2 & K3 & K4 & K5). eapply Hask; [apply (IHa _ k Hk La Ga); lia|nia|nia].
    - (* Opt *) intros a s t s1 c Ca IHa F k Hk (Ea & Hf & La) Ga HW. destruct (HK k Hk) as (K1 & K2 & K3 & K4 & K5).
      eapply outcome_more; [apply (IHa _ k Hk La Ga); lia|apply st_opt|auto|nia|nia].
    - intros a s c Ca IHa F k Hk (Ea & Hf & La) Ga HW. destruct (HK k Hk) as (K1 & K2 & K3 & K4 & K5). replace (1 + c) with (1 + c + 0) by lia.
      eapply outcome_alt with (d := 1) (sta := starts a) (stb := starts a) (ibb := 0) (bb := 0); [apply (IHa _ k Hk La Ga); lia|apply HY; lia| |nia|nia|nia|apply st_opt|apply st_opt|].
      + intros _. split; [lia|right; right; eauto].
      + intros u _ (x & y & -> & Hx). cbn. intros HFx. exact (Hf x HFx Hx).
    - intros a s c Ca IHa F k Hk (Ea & Hf & La) Ga HW. destruct (HK k Hk) as (K1 & K2 & K3 & K4 & K5). eapply Hask; [apply (IHa _ k Hk La Ga); lia|nia|nia].
    - (* Ahead *) intros a s t s1 c Ca IHa F k Hk [].
    - intros a s c Ca IHa F k Hk [].
    - intros a s c Ca IHa F k Hk [].
    - (* Slice *) intros a x t s1 c Ca IHa F k Hk La Ga HW. destruct (HK k Hk) as (K1 & K2 & K3 & K4 & K5).
      apply (@outcome_map _ D _ _ (fun t => Both (Span x) t) F _ _ _ _ (Yes t s1)). eapply outcome_more; [apply (IHa _ k Hk La Ga); lia|apply st_slice|auto|nia|nia].
    - intros a s c Ca IHa F k Hk La Ga HW. destruct (HK k Hk) as (K1 & K2 & K3 & K4 & K5). eapply Hpass; [apply (IHa _ k Hk La Ga); lia|apply st_slice|nia|nia].
    - intros a s c Ca IHa F k Hk La Ga HW. destruct (HK k Hk) as (K1 & K2 & K3 & K4 & K5). eapply Hask; [apply (IHa _ k Hk La Ga); lia|nia|nia].
    - (* Star *) intros a s r c Ca IHa F k Hk [Hf La] [Ea Ga] HW. destruct (HK k Hk) as (K1 & K2 & K3 & K4 & K5). apply outcome_map.
      eapply outcome_more; [apply (IHa F k Hk Hf La Ga Ea); lia|apply st_star|auto|nia|nia].
    - (* Plus *) intros a s t s1 c1 r c2 Ca IHa Cb IHb F k Hk [Hf La] [Ea Ga] HW. destruct (HK k Hk) as (K1 & K2 & K3 & K4 & K5). do 2 apply outcome_map.
      eapply outcome_seq with (d := 1) (ibb := 0) (bb := 0) (ibR := weight a * still R) (bR := 2 * weight a * going R) (stb := starts a);
        [apply (IHa _ k Hk La Ga); lia| | |apply st_plus|intros x Hx; left; exact Hx|intros u _ x Hx; right; exact Hx].
      + intros ->. rewrite (costs_here Ca) in Ea. discriminate.
      + intros Hn. pose proof (good_top _ _ Ga) as Ga2. split; [apply (IHb F R (le_n _) Hf La Ga2 Ea); lia|]. split; [intros Ha; exact (proj1 (proj2 apart_idle) _ _ _ _ Cb R Ha Ga2 Ea)|].
        pose proof (@below_D (2 * weight a) R (le_n _)). split; nia.
    - intros a s c Ca IHa F k Hk [Hf La] [Ea Ga] HW. destruct (HK k Hk) as (K1 & K2 & K3 & K4 & K5). eapply Hpass; [apply (IHa _ k Hk La Ga); lia|apply st_plus|nia|nia].
    - intros a s c Ca IHa F k Hk [Hf La] [Ea Ga] HW. destruct (HK k Hk) as (K1 & K2 & K3 & K4 & K5). eapply Hask; [apply (IHa _ k Hk La Ga); lia|nia|nia].
    - (* Times *) intros n a s r c Ca IHa F k Hk La Ga HW. destruct (HK k Hk) as (K1 & K2 & K3 & K4 & K5). apply outcome_map.
      eapply outcome_more; [apply (IHa F k Hk La Ga); lia|apply st_times|auto|nia|nia].
    - (* Sep *) intros a b s t s1 c1 r c2 Ca IHa Cb IHb F k Hk (Hf & La & Lb) (Ee & Ga & Gb) HW. destruct (HK k Hk) as (K1 & K2 & K3 & K4 & K5). do 2 apply outcome_map.
      assert (Lba : ll1 (fun x => starts (Then b a) x \/ F x) (Then b a)) by (split; assumption).
      assert (Eba : may_empty nul (Then b a) = false) by (cbn [may_empty]; rewrite andb_comm; assumption).
      assert (Wba : weight (Then b a) = 1 + weight b + weight a) by reflexivity. set (w := weight (Then b a)) in *. rewrite <- Wba in HW |- *.
      eapply outcome_seq with (d := 1) (ibb := w * still k) (bb := 2 * w * going k) (ibR := w * still R) (bR := 2 * w * going R) (stb := starts (Then b a));
        [apply (IHa _ k Hk La Ga); lia| | |apply st_sep1|intros x Hx; left; exact Hx|intros u _ x Hx; right; exact Hx].
      + intros ->. pose proof (costs_here Ca) as Ea. rewrite Ea in Gb, Ee. cbn in Ee.
        assert (Gba : good (Some k) (Then b a)) by (cbn [SpecPeg.good]; rewrite Ee; split; [assumption|eapply good_none; eassumption]).
        split; [apply (IHb F k Hk Hf Lba Gba Eba); lia|]. split; [intros Ha; exact (proj1 (proj2 apart_idle) _ _ _ _ Cb k Ha Gba Eba)|].
        repeat split; try nia. intros x Hx. inversion Hx; subst; [apply st_sep2; assumption|apply st_sep1; assumption].
      + intros Hn. assert (Gba : good (Some R) (Then b a)).
        { cbn [SpecPeg.good]. split; [eapply good_top; eassumption|]. destruct (may_empty nul b); [eapply good_top; eassumption|eapply good_none; eassumption]. }
        split; [apply (IHb F R (le_n _) Hf Lba Gba Eba); lia|]. split; [intros Ha; exact (proj1 (proj2 apart_idle) _ _ _ _ Cb R Ha Gba Eba)|].
        pose proof (@below_D (2 * w) R (le_n _)). split; nia.
    - intros a b s c Ca IHa F k Hk (Hf & La & Lb) (Ee & Ga & Gb) HW. destruct (HK k Hk) as (K1 & K2 & K3 & K4 & K5). eapply Hpass; [apply (IHa _ k Hk La Ga); lia|apply st_sep1|nia|nia].
    - intros a b s c Ca IHa F k Hk (Hf & La & Lb) (Ee & Ga & Gb) HW. destruct (HK k Hk) as (K1 & K2 & K3 & K4 & K5). eapply Hask; [apply (IHa _ k Hk La Ga); lia|nia|nia].
    - (* Rule *) intros n s r c Ca IHa F k Hk HF Hr _. pose proof (rule_below Hr). pose proof (rule_going Hr).
      eapply outcome_more; [apply (IHa (follow n) (rank n)); [pose proof (HR n); lia|apply Hg|apply Hwf|pose proof (Hm n); lia]|apply st_rule|exact HF|lia|lia].
    - (* laps *) intros a s c Ca IHa F k Hk Hf La Ga Ea HW. destruct (HK k Hk) as (K1 & K2 & K3 & K4 & K5). replace c with (0 + c + 0) by lia.
      eapply outcome_alt with (d := 0) (sta := starts a) (stb := starts a) (ibb := 0) (bb := 0); [apply (IHa _ k Hk La Ga); lia|apply HY; lia| |nia|nia|nia|auto|auto|].
      + intros _. split; [lia|right; right; eauto].
      + intros u _ (x & y & -> & Hx). cbn. intros HFx. exact (Hf x HFx Hx).
    - intros a s c Ca IHa F k Hk Hf La Ga Ea HW. destruct (HK k Hk) as (K1 & K2 & K3 & K4 & K5).
      destruct (IHa _ k Hk La Ga ltac:(lia)) as [[Hc _]|[(t' & x & s1' & E & _)|[(t' & x & s1' & E & _)|[(E & Hc)|(E & Hc)]]]]; try discriminate.
      + apply HA. lia.
      + right; right; right; right. split; [reflexivity|nia].
    - intros a s t s1 c1 r c2 Ca IHa Cb IHb F k Hk Hf La Ga Ea HW. destruct (HK k Hk) as (K1 & K2 & K3 & K4 & K5). apply outcome_map. replace (c1 + c2) with (0 + c1 + c2) by lia.
      eapply outcome_seq with (d := 0) (ibb := 0) (bb := 0) (ibR := weight a * still R) (bR := 2 * weight a * going R) (stb := starts a);
        [apply (IHa _ k Hk La Ga); lia| | |auto|intros x Hx; left; exact Hx|intros u _ x Hx; right; exact Hx].
      + intros ->. rewrite (costs_here Ca) in Ea. discriminate.
      + intros Hn. pose proof (good_top _ _ Ga) as Ga2. split; [apply (IHb F R (le_n _) Hf La Ga2 Ea); lia|]. split; [intros Ha; exact (proj1 (proj2 apart_idle) _ _ _ _ Cb R Ha Ga2 Ea)|].
        pose proof (@below_D (2 * weight a) R (le_n _)). split; nia.
    - (* turns *) intros a s F k Hk La Ga HW. apply HY. lia.
    - intros n a s c Ca IHa F k Hk La Ga HW. pose proof (weight_pos a). destruct (IHa _ k Hk La Ga ltac:(nia)) as [[Hc _]|[(t' & x & s1' & E & _)|[(t' & x & s1' & E & _)|[(E & Hs & Hc)|(E & Hc)]]]]; try discriminate.
      + apply HN. nia.
      + right; right; right; left. repeat split; [assumption|nia].
    - intros n a s c Ca IHa F k Hk La Ga HW. pose proof (weight_pos a). destruct (IHa _ k Hk La Ga ltac:(nia)) as [[Hc _]|[(t' & x & s1' & E & _)|[(t' & x & s1' & E & _)|[(E & Hc)|(E & Hc)]]]]; try discriminate.
      + apply HA. nia.
      + right; right; right; right. split; [reflexivity|nia].
    - intros n a s t s1 c1 r c2 Ca IHa Cb IHb F k Hk La Ga HW. destruct (HK k Hk) as (K1 & K2 & K3 & K4 & K5). pose proof (weight_pos a). apply outcome_map. replace (c1 + c2) with (0 + c1 + c2) by lia.
      eapply outcome_seq with (d := 0) (ibb := n * weight a * still k) (bb := n * weight a * going k) (ibR := n * weight a * still R) (bR := n * weight a * going R) (stb := starts a);
        [apply (IHa _ k Hk La Ga); nia| | |auto|intros x Hx; left; exact Hx|intros u _ x Hx; right; exact Hx].
      + intros ->. split; [apply (IHb F k Hk La Ga); nia|]. split; [intros Ha; exact (proj2 (proj2 apart_idle) _ _ _ _ _ Cb k Ha Ga)|]. repeat split; try nia. auto.
      + intros Hn. pose proof (good_top _ _ Ga) as Ga2. split; [apply (IHb F R (le_n _) La Ga2); nia|]. split; [intros Ha; exact (proj2 (proj2 apart_idle) _ _ _ _ _ Cb R Ha Ga2)|].
        pose proof (@below_D (n * weight a) R (le_n _)). split; nia.
  Qed.

  Lemma linear_bound : forall e s r c F, costs e s r c -> ll1 F e -> good None e -> weight e <= M -> c <= 4 * D * (length s + 1).
  Proof.
    intros e s r c F C Hl Hgd HW. pose proof (@below_D (weight e) R (le_n _) HW) as HB. pose proof (going_still R).
    destruct (proj1 ll1_linear _ _ _ _ C F R (le_n _) Hl (good_top _ _ Hgd) HW) as [[Hc _]|[(t & x & s1 & _ & Es & Hx & _ & Hc)|[(t & x & s1 & _ & Es & _ & _ & Hc)|[(_ & _ & Hc)|(_ & Hc)]]]].
    - assert (weight e * still R <= weight e * going R) by (apply Nat.mul_le_mono_l; lia). nia.
    - assert (length x <= length s) by (rewrite Es, app_length; lia). nia.
    - destruct Hc as [[_ Hc]|[_ Hc]]; nia.
    - nia.
    - nia.
  Qed.

  (** In front of what may follow, what comes behind does not matter. *)
  Lemma local_bound : forall e s t s1 c F, costs e s (Yes t s1) c -> ll1 F e -> good None e -> weight e <= M -> follows F s1 ->
    exists x, s = x ++ s1 /\ c <= 4 * D * (length x + 1).
  Proof.
    intros e s t s1 c F C Hl Hgd HW Hf. pose proof (@below_D (weight e) R (le_n _) HW) as HB. pose proof (going_still R). assert (weight e * still R <= weight e * going R) by (apply Nat.mul_le_mono_l; lia).
    destruct (proj1 ll1_linear _ _ _ _ C F R (le_n _) Hl (good_top _ _ Hgd) HW) as [[Hc [E|[E|(t' & E)]]]|[(t' & x & s1' & E & Es & Hx & _ & Hc)|[(t' & x & s1' & E & Es & Hm' & _ & Hc)|[(E & _)|(E & _)]]]];
      try discriminate; injection E as _ E.
    - exists []. split; [rewrite E; reflexivity|]. cbn [length]. nia.
    - subst s1'. exists x. split; [assumption|]. nia.
    - subst s1'. exists x. split; [assumption|]. destruct s1 as [|y s1]; [|exfalso; exact (Hm' Hf)]. rewrite app_nil_r in Es. subst s. destruct Hc as [[_ Hc]|[_ Hc]]; nia.
  Qed.
End Linear.

(** * Finitely many rules *)

Section Finite.
  Context {I : Type}.
  Variable eqb : I -> I -> bool.
  Variable g : nat -> peg I.
  Variable nul : nat -> bool.
  Variable rank : nat -> nat.
  Variable follow : nat -> I -> Prop.
  Variable k : nat.
  Variable N : nat.
  Hypothesis HN : forall n, N <= n -> g n = Empty.

  Definition rank_in (n : nat) : nat := if n <? N then rank n else 0.
  Lemma good_rank : forall (e : peg I) o, good nul rank o e -> good nul rank_in o e.
  Proof.
    induction e; intros o H; cbn [good] in *; intuition eauto. destruct o as [q|]; [|exact Logic.I]. unfold rank_in. destruct (n <? N); lia.
  Qed.
  Lemma ll1_rank : ll1_grammar eqb nul rank follow k g -> ll1_grammar eqb nul rank_in follow k g.
  Proof.
    intros [Hwf Hl Hs Ho]. split; try assumption. intros n. destruct (Hwf n) as [Hgd Hn]. split; [|exact Hn]. unfold rank_in at 2. destruct (Nat.ltb_spec n N).
    - apply good_rank. assumption.
    - rewrite HN by assumption. exact Logic.I.
  Qed.
  Lemma below_max : forall (f : nat -> nat) n, n < N -> f n <= list_max (List.map f (seq 0 N)).
  Proof.
    intros f n Hn. pose proof (proj1 (list_max_le (List.map f (seq 0 N)) _) (le_n _)) as H. rewrite Forall_forall in H. apply H, in_map, in_seq. lia.
  Qed.
  Lemma bounded : exists m R, (forall n, weight (g n) <= m) /\ (forall n, rank_in n < R).
  Proof.
    exists (S (list_max (List.map (fun n => weight (g n)) (seq 0 N)))), (S (list_max (List.map rank (seq 0 N)))). split; intros n.
    - destruct (Nat.lt_ge_cases n N) as [H|H]; [pose proof (below_max (fun n => weight (g n)) H); cbn in *; lia|]. rewrite HN by assumption. cbn. lia.
    - unfold rank_in. destruct (Nat.ltb_spec n N) as [H|H]; [pose proof (below_max rank H)|]; lia.
  Qed.
End Finite.
