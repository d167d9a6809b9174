(** Proofs for C70: parsing expression grammars written with the library. *)
From Coq Require Import List Bool Arith Lia.
From Verif Require Import Base Parsers Combinators SpecBase SpecIter SpecSep BaseProofs IterProofs ManyProofs SepProofs SpecPeg Peg.
Import ListNotations.

Set Implicit Arguments.

(** * Loops, with the budget they need *)

Section Loops.
  Context {S I U E : Type}.
  Variable p : sparser S I U E.

  Lemma full_error : forall fuel s0 i us s j b e, iterates p s0 i us s j -> fst (p s j) = Error b e -> length us + 2 <= fuel ->
    many fuel (vec_collector U) s0 p i = Data j us.
  Proof.
    intros fuel s0 i us s j b e Hi He Hf. unfold many, bmany, parse_many_full. eapply run_iter_complete; eauto. right. left. split; [reflexivity|]. exists b, e. auto.
  Qed.
  Lemma full_incomplete : forall fuel s0 i us s j n, iterates p s0 i us s j -> fst (p s j) = Incomplete n -> length us + 2 <= fuel ->
    many fuel (vec_collector U) s0 p i = if last j then Data j us else Incomplete n.
  Proof.
    intros fuel s0 i us s j n Hi He Hf. unfold many, bmany, parse_many_full. eapply run_iter_complete; eauto. right. right. left. split; [reflexivity|]. exists n. auto.
  Qed.
  Lemma iter_dec0_one : forall k, Nat.iter (Datatypes.S k) dec0 1 = 0.
  Proof. intros k. rewrite iter_dec0. lia. Qed.
  Lemma from_error : forall fuel s0 i us s j b e, iterates p s0 i us s j -> fst (p s j) = Error b e -> length us + 2 <= fuel ->
    many1 fuel (vec_collector U) s0 p i = match us with [] => Error b e | _ => Data j us end.
  Proof.
    intros fuel s0 i us s j b e Hi He Hf. unfold many1, bmany, parse_many_from. eapply run_iter_complete; eauto. right. left. split; [reflexivity|]. exists b, e. split; auto.
    destruct us as [|u us]; cbn [length]; [reflexivity|]. rewrite iter_dec0_one. reflexivity.
  Qed.
  Lemma from_incomplete : forall fuel s0 i us s j n, iterates p s0 i us s j -> fst (p s j) = Incomplete n -> length us + 2 <= fuel ->
    many1 fuel (vec_collector U) s0 p i = match us with [] => Incomplete n | _ => if last j then Data j us else Incomplete n end.
  Proof.
    intros fuel s0 i us s j n Hi He Hf. unfold many1, bmany, parse_many_from. eapply run_iter_complete; eauto. right. right. left. split; [reflexivity|]. exists n. split; auto.
    destruct us as [|u us]; cbn [length]; [reflexivity|]. rewrite iter_dec0_one. reflexivity.
  Qed.
  Lemma exact_done : forall fuel s0 i us s j, iterates p s0 i us s j -> length us + 2 <= fuel -> count fuel (vec_collector U) (length us) s0 p i = Data j us.
  Proof.
    intros fuel s0 i us s j Hi Hf. unfold count, bmany, parse_many_exact. eapply run_iter_complete; eauto.
    - intros k Hk. rewrite iter_pred. apply Nat.eqb_neq. lia.
    - left. rewrite iter_pred, Nat.sub_diag. auto.
  Qed.
  Lemma exact_error : forall fuel n s0 i us s j b e, iterates p s0 i us s j -> length us < n -> fst (p s j) = Error b e -> length us + 2 <= fuel ->
    count fuel (vec_collector U) n s0 p i = Error b e.
  Proof.
    intros fuel n s0 i us s j b e Hi Hl He Hf. unfold count, bmany, parse_many_exact. eapply run_iter_complete; eauto.
    - intros k Hk. rewrite iter_pred. apply Nat.eqb_neq. lia.
    - right. left. rewrite iter_pred. split; [apply Nat.eqb_neq; lia|]. exists b, e. split; auto. destruct (n - length us) eqn:H; [lia|reflexivity].
  Qed.
  Lemma exact_incomplete : forall fuel n s0 i us s j m, iterates p s0 i us s j -> length us < n -> fst (p s j) = Incomplete m -> length us + 2 <= fuel ->
    count fuel (vec_collector U) n s0 p i = Incomplete m.
  Proof.
    intros fuel n s0 i us s j m Hi Hl He Hf. unfold count, bmany, parse_many_exact. eapply run_iter_complete; eauto.
    - intros k Hk. rewrite iter_pred. apply Nat.eqb_neq. lia.
    - right. right. left. rewrite iter_pred. split; [apply Nat.eqb_neq; lia|]. exists m. split; auto. destruct (n - length us) eqn:H; [lia|reflexivity].
  Qed.
End Loops.

(** * From derivations to parsers *)

Section Peg.
  Context {I : Type}.
  Variable v : bool.
  Variable eqb : I -> I -> bool.
  Variable g : nat -> peg I.
  Notation comp := (peg_parser v eqb g).
  Notation derives := (derives eqb g).
  Notation steps := (steps eqb g).

  Lemma comp_eq : forall fuel e i, comp fuel e i =
      match e with
      | Empty => ret Nothing i
      | Sat f => map (@One I) (satisfy v f i)
      | Lit w => map (@Span I) (string v eqb w i)
      | Run f => map (@Span I) (take_while f i)
      | Seq a b => bind (fun e => e) (comp fuel a i) (fun i t => map (Both t) (comp fuel b i))
      | Then a b => then_ (fun e => e) (comp fuel a i) (comp fuel b)
      | Alt a b => or_ (comp fuel a) (comp fuel b) i
      | Opt a => option_ (comp fuel a) Nothing i
      | Ahead a => look_ahead (comp fuel a) i
      | Slice a => map (fun xt => Both (Span (fst xt)) (snd xt)) (matched_by (comp fuel a) i)
      | Star a => map (@Many I) (many fuel (vec_collector _) tt (pure (comp fuel a)) i)
      | Plus a => map (@Many I) (many1 fuel (vec_collector _) tt (pure (comp fuel a)) i)
      | Times n a => map (@Many I) (count fuel (vec_collector _) n tt (pure (comp fuel a)) i)
      | Sep a b => map (@Many I) (sep_by1 fuel (vec_collector _) (fun e => e) tt tt (pure (comp fuel a)) (pure (comp fuel b)) i)
      | Rule n => match fuel with 0 => NoFuel | S fuel => comp fuel (g n) i end
      end.
  Proof. intros fuel e i. destruct fuel, e; reflexivity. Qed.

  Lemma derives_suffix :
    (forall e s r d, derives e s r d -> forall t s1, r = Some (t, s1) -> suffix s1 s) /\
    (forall a s ts s1 d, steps a s ts s1 d -> suffix s1 s).
  Proof.
    assert (Hrefl : forall s : list I, suffix s s) by (intros s; exists []; reflexivity).
    assert (Htr : forall a b c : list I, suffix a b -> suffix b c -> suffix a c) by (intros a b c [x ->] [y ->]; exists (y ++ x); apply app_assoc).
    apply derives_steps_ind; intros; subst; try discriminate; eauto;
      try (match goal with H : Some _ = Some _ |- _ => inversion H; subst; clear H end); eauto.
    - exists [x]. reflexivity.
    - exists x. reflexivity.
    - exists x. reflexivity.
    - match goal with |- suffix [] ?x => exists x end. rewrite app_nil_r. reflexivity.
  Qed.
  Lemma derives_length : forall e s t s1 d, derives e s (Some (t, s1)) d -> length s1 <= length s.
  Proof. intros e s t s1 d H. destruct (proj1 derives_suffix _ _ _ _ H _ _ eq_refl) as [x ->]. rewrite app_length. lia. Qed.
  Lemma steps_length : forall a s ts s1 d, steps a s ts s1 d -> length s1 <= length s.
  Proof. intros a s ts s1 d H. destruct (proj2 derives_suffix _ _ _ _ _ H) as [x ->]. rewrite app_length. lia. Qed.

  (** What the parser does when no more input can come. *)
  Definition at_end (r : option (tree I * list I)) (res : pres I (tree I) (error I)) : Prop :=
    match r with
    | Some (t, s1) => res = Data (mkInput true s1) t
    | None => (exists b e, res = Error b e) \/ (exists n, res = Incomplete n)
    end.
  (** And when all that matters is there. *)
  Definition verdict (l : bool) (c : list I) (r : option (tree I * list I)) (res : pres I (tree I) (error I)) : Prop :=
    match r with
    | Some (t, s1) => res = Data (mkInput l (s1 ++ c)) t
    | None => exists b e, res = Error b e
    end.
  Definition does f e s r d : Prop :=
    at_end r (comp f e (mkInput true s)) /\
    (d <= length s -> forall l c, verdict l c r (comp f e (mkInput l (s ++ c)))) /\
    (length s < d -> exists n, 1 <= n /\ length s + n <= d /\ comp f e (mkInput false s) = Incomplete n).
  Definition repeats f a s ts s1 d : Prop :=
    iterates (pure (comp f a)) tt (mkInput true s) ts tt (mkInput true s1) /\
    (d <= length s -> forall l c, iterates (pure (comp f a)) tt (mkInput l (s ++ c)) ts tt (mkInput l (s1 ++ c))) /\
    (length s < d -> exists us s' n, length us < length ts /\ iterates (pure (comp f a)) tt (mkInput false s) us tt (mkInput false s') /\
       comp f a (mkInput false s') = Incomplete n /\ 1 <= n /\ length s + n <= d).


  (** A run of matches and the failure behind it. *)
  Lemma run_facts : forall f a s ts s1 d1 d2, length s1 <= length s -> repeats f a s ts s1 d1 -> does f a s1 None d2 ->
    (iterates (pure (comp f a)) tt (mkInput true s) ts tt (mkInput true s1) /\
     ((exists b e, comp f a (mkInput true s1) = Error b e) \/ (exists n, comp f a (mkInput true s1) = Incomplete n))) /\
    (seen s s1 d1 d2 <= length s -> forall l c, iterates (pure (comp f a)) tt (mkInput l (s ++ c)) ts tt (mkInput l (s1 ++ c)) /\
       exists b e, comp f a (mkInput l (s1 ++ c)) = Error b e) /\
    (length s < seen s s1 d1 d2 -> exists us s' n, length us <= length ts /\ iterates (pure (comp f a)) tt (mkInput false s) us tt (mkInput false s') /\
       comp f a (mkInput false s') = Incomplete n /\ 1 <= n /\ length s + n <= seen s s1 d1 d2).
  Proof.
    intros f a s ts s1 d1 d2 Hl (R1 & R2 & R3) (D1 & D2 & D3). unfold seen. split; [|split].
    - split; assumption.
    - intros H l c. split; [apply R2; lia|]. apply (D2 ltac:(lia) l c).
    - intros H. destruct (Nat.lt_ge_cases (length s) d1) as [L|L].
      + destruct (R3 L) as (us & s' & n & A & B & C & D & F). exists us, s', n. repeat split; auto; lia.
      + destruct (D3 ltac:(lia)) as (n & A & B & C). exists ts, s1, n. repeat split; auto; try lia.
        pose proof (R2 L false []) as Hi. rewrite !app_nil_r in Hi. exact Hi.
  Qed.

  Lemma sep_iterates : forall f a b i us j, iterates (pure (comp f (Then b a))) tt i us tt j ->
    iterates (sep_then (fun e => e) (pure (comp f a)) (pure (comp f b))) (tt, tt) i us (tt, tt) j.
  Proof.
    intros f a b i us j H. remember tt as x in H at 1. remember tt as y in H. revert Heqy. induction H as [s i|s i u s1 i1 us s2 i2 Hp H IH]; intros Heqy.
    - constructor.
    - destruct s1. econstructor; [|apply IH; auto]. unfold sep_then, pure in *. cbn [fst snd]. rewrite comp_eq in Hp. unfold then_, bind in Hp.
      destruct (comp f b i) as [k w|? ?|?| |]; inversion Hp as [Hp']. destruct (comp f a k); inversion Hp'; subst; reflexivity.
  Qed.
  Lemma sep_stop : forall f a b j, fst (sep_then (fun e => e) (pure (comp f a)) (pure (comp f b)) (tt, tt) j) = comp f (Then b a) j.
  Proof.
    intros f a b j. rewrite comp_eq. unfold sep_then, pure, then_, bind. cbn [fst snd]. destruct (comp f b j) as [k w|? ?|?| |]; cbn [fst]; auto.
    destruct (comp f a k); reflexivity.
  Qed.

  Ltac go := split; [rewrite comp_eq|split; [intros Hd l c; rewrite comp_eq|intros Hd; rewrite comp_eq]].

  Lemma string_not : forall w l s, (forall x y, s = x ++ y -> ~ same_items eqb w x) ->
    (length s < length w /\ string v eqb w (mkInput l s) = Incomplete (length w - length s)) \/
    (length w <= length s /\ forall c, exists b e, string v eqb w (mkInput l (s ++ c)) = Error b e).
  Proof.
    intros w l s Hn. destruct (string_total eqb w s) as [H|[(x & y & -> & H)|(x & y & n & -> & Hl & H)]].
    - left. split; [exact H|]. apply string_short; lia.
    - exfalso. apply (Hn x y eq_refl H).
    - right. rewrite app_length. split; [lia|]. intros c. rewrite <- app_assoc, (@string_mismatch_spec I v eqb w l x (y ++ c) n Hl H). destruct v; eauto.
  Qed.

  Lemma derives_does :
    (forall e s r d, derives e s r d -> exists f0, forall f, f0 <= f -> does f e s r d) /\
    (forall a s ts s1 d, steps a s ts s1 d -> exists f0, forall f, f0 <= f -> repeats f a s ts s1 d).
  Proof.
    apply derives_steps_ind.
    - (* Empty *) intros s. exists 0. intros f _. go; [reflexivity|reflexivity|lia].
    - (* Sat *) intros f x s Hx. exists 0. intros fuel _. go; cbn [length] in *; [| |lia]; unfold satisfy; cbn [buf app first]; rewrite Hx; reflexivity.
    - intros f x s Hx. exists 0. intros fuel _. go; cbn [length] in *; [| |lia]; unfold satisfy; cbn [buf app first]; rewrite Hx; cbn; unfold err, incomplete; eauto.
    - intros f. exists 0. intros fuel _. go; cbn [length] in *; [right; exists 1; reflexivity|lia|]. exists 1. auto.
    - (* Lit *) intros w x s H. exists 0. intros fuel _. pose proof (same_items_length H) as Hl. go.
      + rewrite (string_match v true s H). reflexivity.
      + rewrite <- app_assoc, (string_match v l (s ++ c) H). reflexivity.
      + rewrite app_length in Hd. lia.
    - intros w s H. exists 0. intros fuel _. go.
      + destruct (string_not true H) as [[_ E]|[_ E]]; [rewrite E; cbn; eauto|]. destruct (E []) as (b & e & E'). rewrite app_nil_r in E'. rewrite E'. cbn. unfold err, incomplete. eauto.
      + destruct (string_not l H) as [[L _]|[_ E]]; [lia|]. destruct (E c) as (b & e & ->). cbn. unfold err, incomplete. eauto.
      + destruct (string_not false H) as [[L E]|[L _]]; [|lia]. rewrite E. exists (length w - length s). repeat split; lia.
    - (* Run *) intros f x c0 s Hx Hc. exists 0. intros fuel _. go.
      + rewrite (proj2 (take_while_spec f true _ _) (or_introl (ex_intro _ x (ex_intro _ c0 (ex_intro _ s (conj eq_refl (conj Hx (conj Hc eq_refl)))))))). reflexivity.
      + rewrite <- app_assoc. cbn [app]. rewrite (proj2 (take_while_spec f l _ _) (or_introl (ex_intro _ x (ex_intro _ c0 (ex_intro _ (s ++ c) (conj eq_refl (conj Hx (conj Hc eq_refl)))))))). reflexivity.
      + rewrite app_length in Hd. cbn in Hd. lia.
    - intros f x Hx. exists 0. intros fuel _. go.
      + rewrite (proj2 (take_while_spec f true _ _) (or_intror (or_introl (conj Hx (conj eq_refl eq_refl))))). reflexivity.
      + lia.
      + rewrite (proj2 (take_while_spec f false _ _) (or_intror (or_intror (conj Hx (conj eq_refl eq_refl))))). exists 1. repeat split; lia.
    - (* Seq *) intros a b s t s1 d1 u s2 d2 Ha [f1 H1] Hb [f2 H2]. pose proof (derives_length Ha) as Hl. exists (Nat.max f1 f2). intros f Hf.
      destruct (H1 f ltac:(lia)) as (A1 & A2 & A3). destruct (H2 f ltac:(lia)) as (B1 & B2 & B3). unfold seen. cbn [at_end verdict] in *. go.
      + rewrite A1. cbn [bind]. rewrite B1. reflexivity.
      + rewrite (A2 ltac:(lia)). cbn [bind]. rewrite (B2 ltac:(lia)). reflexivity.
      + destruct (Nat.lt_ge_cases (length s) d1) as [L|L].
        * destruct (A3 L) as (n & N1 & N2 & N3). rewrite N3. exists n. repeat split; auto; lia.
        * pose proof (A2 L false []) as A. rewrite !app_nil_r in A. rewrite A. cbn [bind]. destruct (B3 ltac:(lia)) as (n & N1 & N2 & N3). rewrite N3. exists n. repeat split; auto; lia.
    - intros a b s d Ha [f1 H1]. exists f1. intros f Hf. destruct (H1 f Hf) as (A1 & A2 & A3). cbn [at_end verdict] in *. go.
      + destruct A1 as [(x & e & ->)|(n & ->)]; cbn; unfold err, incomplete; eauto.
      + destruct (A2 Hd l c) as (x & e & ->). cbn. unfold err, incomplete. eauto.
      + destruct (A3 Hd) as (n & N1 & N2 & ->). exists n. auto.
    - intros a b s t s1 d1 d2 Ha [f1 H1] Hb [f2 H2]. pose proof (derives_length Ha) as Hl. exists (Nat.max f1 f2). intros f Hf.
      destruct (H1 f ltac:(lia)) as (A1 & A2 & A3). destruct (H2 f ltac:(lia)) as (B1 & B2 & B3). unfold seen. cbn [at_end verdict] in *. go.
      + rewrite A1. cbn [bind]. destruct B1 as [(x & e & ->)|(n & ->)]; cbn; unfold err, incomplete; eauto.
      + rewrite (A2 ltac:(lia)). cbn [bind]. destruct (B2 ltac:(lia) l c) as (x & e & ->). cbn. unfold err, incomplete. eauto.
      + destruct (Nat.lt_ge_cases (length s) d1) as [L|L].
        * destruct (A3 L) as (n & N1 & N2 & N3). rewrite N3. exists n. repeat split; auto; lia.
        * pose proof (A2 L false []) as A. rewrite !app_nil_r in A. rewrite A. cbn [bind]. destruct (B3 ltac:(lia)) as (n & N1 & N2 & N3). rewrite N3. exists n. repeat split; auto; lia.
    - (* Then *) intros a b s t s1 d1 r d2 Ha [f1 H1] Hb [f2 H2]. pose proof (derives_length Ha) as Hl. exists (Nat.max f1 f2). intros f Hf.
      destruct (H1 f ltac:(lia)) as (A1 & A2 & A3). destruct (H2 f ltac:(lia)) as (B1 & B2 & B3). unfold seen. cbn [at_end verdict] in *. go; unfold then_.
      + rewrite A1. cbn [bind]. destruct r as [[u s2]|]; cbn [at_end] in *; [rewrite B1; reflexivity|]. destruct B1 as [(x & e & ->)|(n & ->)]; cbn; unfold err, incomplete; eauto.
      + rewrite (A2 ltac:(lia)). cbn [bind]. specialize (B2 ltac:(lia) l c). destruct r as [[u s2]|]; cbn [verdict] in *; [rewrite B2; reflexivity|]. destruct B2 as (x & e & ->). cbn. unfold err, incomplete. eauto.
      + destruct (Nat.lt_ge_cases (length s) d1) as [L|L].
        * destruct (A3 L) as (n & N1 & N2 & N3). rewrite N3. exists n. repeat split; auto; lia.
        * pose proof (A2 L false []) as A. rewrite !app_nil_r in A. rewrite A. cbn [bind]. destruct (B3 ltac:(lia)) as (n & N1 & N2 & N3). rewrite N3. exists n. repeat split; auto; lia.
    - intros a b s d Ha [f1 H1]. exists f1. intros f Hf. destruct (H1 f Hf) as (A1 & A2 & A3). cbn [at_end verdict] in *. go.
      + destruct A1 as [(x & e & ->)|(n & ->)]; cbn; unfold err, incomplete; eauto.
      + destruct (A2 Hd l c) as (x & e & ->). cbn. unfold err, incomplete. eauto.
      + destruct (A3 Hd) as (n & N1 & N2 & ->). exists n. auto.
    - (* Alt *) intros a b s [t s1] d Ha [f1 H1]. exists f1. intros f Hf. destruct (H1 f Hf) as (A1 & A2 & A3). cbn [at_end verdict] in *. go; unfold or_.
      + rewrite A1. reflexivity.
      + rewrite (A2 Hd). reflexivity.
      + destruct (A3 Hd) as (n & N1 & N2 & ->). exists n. auto.
    - intros a b s d1 r d2 Ha [f1 H1] Hb [f2 H2]. exists (Nat.max f1 f2). intros f Hf.
      destruct (H1 f ltac:(lia)) as (A1 & A2 & A3). destruct (H2 f ltac:(lia)) as (B1 & B2 & B3). cbn [at_end verdict] in *. go; unfold or_.
      + destruct A1 as [(x & e & ->)|(n & ->)]; cbn [last]; exact B1.
      + destruct (A2 ltac:(lia) l c) as (x & e & ->). apply B2. lia.
      + destruct (Nat.lt_ge_cases (length s) d1) as [L|L].
        * destruct (A3 L) as (n & N1 & N2 & N3). rewrite N3. cbn [last]. exists n. repeat split; auto; lia.
        * pose proof (A2 L false []) as A. rewrite !app_nil_r in A. destruct A as (x & e & ->). destruct (B3 ltac:(lia)) as (n & N1 & N2 & N3). rewrite N3. exists n. repeat split; auto; lia.
    - (* Opt *) intros a s [t s1] d Ha [f1 H1]. exists f1. intros f Hf. destruct (H1 f Hf) as (A1 & A2 & A3). cbn [at_end verdict] in *. go; unfold option_.
      + rewrite A1. reflexivity.
      + rewrite (A2 Hd). reflexivity.
      + destruct (A3 Hd) as (n & N1 & N2 & ->). exists n. auto.
    - intros a s d Ha [f1 H1]. exists f1. intros f Hf. destruct (H1 f Hf) as (A1 & A2 & A3). cbn [at_end verdict] in *. go; unfold option_.
      + destruct A1 as [(x & e & ->)|(n & ->)]; reflexivity.
      + destruct (A2 Hd l c) as (x & e & ->). reflexivity.
      + destruct (A3 Hd) as (n & N1 & N2 & ->). exists n. auto.
    - (* Ahead *) intros a s t s1 d Ha [f1 H1]. exists f1. intros f Hf. destruct (H1 f Hf) as (A1 & A2 & A3). cbn [at_end verdict] in *. go; unfold look_ahead.
      + rewrite A1. reflexivity.
      + rewrite (A2 Hd). reflexivity.
      + destruct (A3 Hd) as (n & N1 & N2 & ->). exists n. auto.
    - intros a s d Ha [f1 H1]. exists f1. intros f Hf. destruct (H1 f Hf) as (A1 & A2 & A3). cbn [at_end verdict] in *. go; unfold look_ahead.
      + destruct A1 as [(x & e & ->)|(n & ->)]; cbn; unfold err, incomplete; eauto.
      + destruct (A2 Hd l c) as (x & e & ->). cbn. unfold err, incomplete. eauto.
      + destruct (A3 Hd) as (n & N1 & N2 & ->). exists n. auto.
    - (* Slice *) intros a x t s1 d Ha [f1 H1]. exists f1. intros f Hf. destruct (H1 f Hf) as (A1 & A2 & A3). cbn [at_end verdict] in *. go; unfold matched_by.
      + rewrite A1. cbn [buf]. rewrite app_length. destruct (Nat.ltb_spec (length x + length s1) (length s1)); [lia|].
        replace (length x + length s1 - length s1) with (length x) by lia. rewrite firstn_length_app. reflexivity.
      + rewrite (A2 Hd). cbn [buf]. rewrite !app_length. destruct (Nat.ltb_spec (length x + length s1 + length c) (length s1 + length c)); [lia|].
        replace (length x + length s1 + length c - (length s1 + length c)) with (length x) by lia. rewrite <- app_assoc, firstn_length_app. reflexivity.
      + destruct (A3 Hd) as (n & N1 & N2 & ->). exists n. auto.
    - intros a s d Ha [f1 H1]. exists f1. intros f Hf. destruct (H1 f Hf) as (A1 & A2 & A3). cbn [at_end verdict] in *. go; unfold matched_by.
      + destruct A1 as [(x & e & ->)|(n & ->)]; cbn; unfold err, incomplete; eauto.
      + destruct (A2 Hd l c) as (x & e & ->). cbn. unfold err, incomplete. eauto.
      + destruct (A3 Hd) as (n & N1 & N2 & ->). exists n. auto.
    - (* Star *) intros a s ts s1 d1 d2 Hs [f1 H1] Ha [f2 H2]. exists (Nat.max (length ts + 2) (Nat.max f1 f2)). intros f Hf.
      destruct (run_facts (steps_length Hs) (H1 f ltac:(lia)) (H2 f ltac:(lia))) as ((R1 & R2) & R3 & R4). cbn [at_end verdict] in *. go; cbn [at_end verdict].
      + destruct R2 as [(x & e & R2)|(n & R2)]; [erewrite full_error by (eauto; lia)|erewrite full_incomplete by (eauto; lia)]; reflexivity.
      + destruct (R3 Hd l c) as (T & x & e & T'). erewrite full_error by (eauto; lia). reflexivity.
      + destruct (R4 Hd) as (us & s' & n & U1 & U2 & U3 & U4 & U5). erewrite full_incomplete by (eauto; lia). exists n. auto.
    - (* Plus *) intros a s ts s1 d1 d2 Hs [f1 H1] Hne Ha [f2 H2]. exists (Nat.max (length ts + 2) (Nat.max f1 f2)). intros f Hf.
      destruct (run_facts (steps_length Hs) (H1 f ltac:(lia)) (H2 f ltac:(lia))) as ((R1 & R2) & R3 & R4). cbn [at_end verdict] in *. go; cbn [at_end verdict].
      + destruct R2 as [(x & e & R2)|(n & R2)]; [erewrite from_error by (eauto; lia)|erewrite from_incomplete by (eauto; lia)]; (destruct ts; [congruence|reflexivity]).
      + destruct (R3 Hd l c) as (T & x & e & T'). erewrite from_error by (eauto; lia). destruct ts; [congruence|reflexivity].
      + destruct (R4 Hd) as (us & s' & n & U1 & U2 & U3 & U4 & U5). erewrite from_incomplete by (eauto; lia). exists n. repeat split; auto. destruct us; reflexivity.
    - intros a s d Ha [f1 H1]. exists (Nat.max 2 f1). intros f Hf. destruct (H1 f ltac:(lia)) as (A1 & A2 & A3). cbn [at_end verdict] in *.
      assert (Hi : forall i, iterates (pure (comp f a)) tt i [] tt i) by constructor. go; cbn [at_end verdict].
      + destruct A1 as [(x & e & A1)|(n & A1)]; [erewrite from_error by (eauto; cbn; lia)|erewrite from_incomplete by (eauto; cbn; lia)]; cbn; unfold err, incomplete; eauto.
      + destruct (A2 Hd l c) as (x & e & A). erewrite from_error by (eauto; cbn; lia). cbn. unfold err, incomplete. eauto.
      + destruct (A3 Hd) as (n & N1 & N2 & N). erewrite from_incomplete by (eauto; cbn; lia). exists n. auto.
    - (* Times *) intros a s ts s1 d Hs [f1 H1]. exists (Nat.max (length ts + 2) f1). intros f Hf. destruct (H1 f ltac:(lia)) as (R1 & R2 & R3). go; cbn [at_end verdict].
      + erewrite exact_done by (eauto; lia). reflexivity.
      + erewrite exact_done by (try apply R2; eauto; lia). reflexivity.
      + destruct (R3 Hd) as (us & s' & n & U1 & U2 & U3 & U4 & U5). erewrite exact_incomplete by (eauto; lia). exists n. auto.
    - intros n a s ts s1 d1 d2 Hs [f1 H1] Hn Ha [f2 H2]. exists (Nat.max (length ts + 2) (Nat.max f1 f2)). intros f Hf.
      destruct (run_facts (steps_length Hs) (H1 f ltac:(lia)) (H2 f ltac:(lia))) as ((R1 & R2) & R3 & R4). cbn [at_end verdict] in *. go; cbn [at_end verdict].
      + destruct R2 as [(x & e & R2)|(m & R2)]; [erewrite exact_error by (eauto; lia)|erewrite exact_incomplete by (eauto; lia)]; cbn; unfold err, incomplete; eauto.
      + destruct (R3 Hd l c) as (T & x & e & T'). erewrite exact_error by (eauto; lia). cbn. unfold err, incomplete. eauto.
      + destruct (R4 Hd) as (us & s' & m & U1 & U2 & U3 & U4 & U5). erewrite exact_incomplete by (eauto; lia). exists m. auto.
    - (* Sep *) intros a b s t s1 d1 ts s2 d2 d3 Ha [f1 H1] Hs [f2 H2] Hb [f3 H3]. pose proof (derives_length Ha) as Hl. pose proof (steps_length Hs) as Hl2.
      exists (Nat.max (length ts + 4) (Nat.max f1 (Nat.max f2 f3))). intros f Hf.
      destruct (H1 f ltac:(lia)) as (A1 & A2 & A3). destruct (run_facts (steps_length Hs) (H2 f ltac:(lia)) (H3 f ltac:(lia))) as ((R1 & R2) & R3 & R4).
      set (d := seen s1 s2 d2 d3) in *. unfold seen. cbn [at_end verdict] in *.
      assert (Hfu : exists k, f = S (S k) /\ length ts + 2 <= S k) by (exists (f - 2); lia). destruct Hfu as (k & Hk & Hk').
      assert (Hc : forall i, sep_by1 f (vec_collector (tree I)) (fun e => e) tt tt (pure (comp f a)) (pure (comp f b)) i =
        first_then (pure (comp f a)) (fun sp' j => many (S k) (vec_collector (tree I)) (sp', tt) (sep_then (fun e => e) (pure (comp f a)) (pure (comp f b))) j) tt i).
      { intros i. rewrite Hk at 1. apply sep_by1_char. }
      go; cbn [at_end verdict]; rewrite Hc; unfold first_then, pure at 1.
      + rewrite A1. destruct R2 as [(x & e & R2)|(n & R2)]; rewrite <- sep_stop in R2; apply sep_iterates in R1;
          [erewrite full_error by (eauto; lia)|erewrite full_incomplete by (eauto; lia)]; reflexivity.
      + rewrite (A2 ltac:(lia)). destruct (R3 ltac:(lia) l c) as (T & x & e & T'). rewrite <- sep_stop in T'. apply sep_iterates in T.
        erewrite full_error by (eauto; lia). reflexivity.
      + destruct (Nat.lt_ge_cases (length s) d1) as [L|L].
        * destruct (A3 L) as (n & N1 & N2 & N3). rewrite N3. exists n. repeat split; auto; lia.
        * pose proof (A2 L false []) as A. rewrite !app_nil_r in A. rewrite A.
          destruct (R4 ltac:(lia)) as (us & s' & n & U1 & U2 & U3 & U4 & U5). rewrite <- sep_stop in U3. apply sep_iterates in U2. erewrite full_incomplete by (eauto; lia).
          exists n. repeat split; auto; lia.
    - intros a b s d Ha [f1 H1]. exists (Nat.max 2 f1). intros f Hf. destruct (H1 f ltac:(lia)) as (A1 & A2 & A3). cbn [at_end verdict] in *.
      assert (Hfu : exists k, f = S (S k)) by (exists (f - 2); lia). destruct Hfu as (k & Hk).
      assert (Hc : forall i, sep_by1 f (vec_collector (tree I)) (fun e => e) tt tt (pure (comp f a)) (pure (comp f b)) i =
        first_then (pure (comp f a)) (fun sp' j => many (S k) (vec_collector (tree I)) (sp', tt) (sep_then (fun e => e) (pure (comp f a)) (pure (comp f b))) j) tt i).
      { intros i. rewrite Hk at 1. apply sep_by1_char. }
      go; cbn [at_end verdict]; rewrite Hc; unfold first_then, pure.
      + destruct A1 as [(x & e & A1)|(n & A1)]; rewrite A1; cbn; eauto.
      + destruct (A2 Hd l c) as (x & e & A). rewrite A. cbn. eauto.
      + destruct (A3 Hd) as (n & N1 & N2 & N). rewrite N. exists n. auto.
    - (* Rule *) intros n s r d H [f1 H1]. exists (S f1). intros f Hf. destruct f as [|f]; [lia|]. destruct (H1 f ltac:(lia)) as (A1 & A2 & A3).
      split; [rewrite comp_eq; exact A1|split; [intros Hd l c; rewrite comp_eq; apply A2; exact Hd|intros Hd; rewrite comp_eq; apply A3; exact Hd]].
    - (* steps *) intros a s. exists 0. intros f _. split; [constructor|split; [constructor|cbn; lia]].
    - intros a s t s1 d1 ts s2 d2 Ha [f1 H1] Hs [f2 H2]. pose proof (derives_length Ha) as Hl. exists (Nat.max f1 f2). intros f Hf.
      destruct (H1 f ltac:(lia)) as (A1 & A2 & A3). destruct (H2 f ltac:(lia)) as (R1 & R2 & R3). cbn [at_end verdict] in *. unfold seen. split; [|split].
      + econstructor; [unfold pure; rewrite A1; reflexivity|exact R1].
      + intros Hd l c. econstructor; [unfold pure; rewrite (A2 ltac:(lia)); reflexivity|apply R2; lia].
      + intros Hd. destruct (Nat.lt_ge_cases (length s) d1) as [L|L].
        * destruct (A3 L) as (n & N1 & N2 & N3). exists [], s, n. repeat split; auto; try lia; [cbn; lia|constructor].
        * pose proof (A2 L false []) as A. rewrite !app_nil_r in A.
          destruct (R3 ltac:(lia)) as (us & s' & n & U1 & U2 & U3 & U4 & U5). exists (t :: us), s', n. repeat split; auto; try lia; [cbn; lia|].
          econstructor; [unfold pure; rewrite A; reflexivity|exact U2].
  Qed.

  (** * From parsers to derivations *)

  Definition sound_at f e : Prop := forall l s,
    match comp f e (mkInput l s) with
    | Data j t => last j = l /\ exists d, derives e s (Some (t, buf j)) d /\ (l = false -> d <= length s)
    | Error _ _ => exists d, derives e s None d /\ (l = false -> d <= length s)
    | Incomplete _ => l = true -> exists d, derives e s None d
    | Panic => False
    | NoFuel => True
    end.

  Lemma sound_data : forall f e l s j t, sound_at f e -> comp f e (mkInput l s) = Data j t -> last j = l /\ exists d, derives e s (Some (t, buf j)) d /\ (l = false -> d <= length s).
  Proof. intros f e l s j t H E. specialize (H l s). rewrite E in H. exact H. Qed.
  Lemma sound_error : forall f e l s b x, sound_at f e -> comp f e (mkInput l s) = Error b x -> exists d, derives e s None d /\ (l = false -> d <= length s).
  Proof. intros f e l s b x H E. specialize (H l s). rewrite E in H. exact H. Qed.
  Lemma sound_incomplete : forall f e s n, sound_at f e -> comp f e (mkInput true s) = Incomplete n -> exists d, derives e s None d.
  Proof. intros f e s n H E. specialize (H true s). rewrite E in H. auto. Qed.
  Lemma sound_panic : forall f e i, sound_at f e -> comp f e i <> Panic.
  Proof. intros f e [l s] H E. specialize (H l s). rewrite E in H. exact H. Qed.

  Lemma seen_le : forall s s1 d1 d2 : nat, s1 <= s -> d1 <= s -> d2 <= s1 -> Nat.max d1 (s - s1 + d2) <= s.
  Proof. intros. lia. Qed.

  Lemma iterates_steps : forall f a, sound_at f a -> forall l s us u j, iterates (pure (comp f a)) tt (mkInput l s) us u j ->
    last j = l /\ exists d, steps a s us (buf j) d /\ (l = false -> d <= length s).
  Proof.
    intros f a Ha l s us u j H. remember (mkInput l s) as i eqn:Hi. revert l s Hi. remember tt as x in H. clear Heqx.
    induction H as [x i|x i w x1 i1 us x2 i2 Hp H IH]; intros l s ->.
    - split; [reflexivity|]. exists 0. split; [constructor|lia].
    - unfold pure in Hp. pose proof (f_equal fst Hp) as Hp1. cbn [fst] in Hp1. destruct (sound_data _ _ Ha Hp1) as (Hl & d1 & D1 & L1). destruct i1 as [l1 s1]. cbn [last buf] in *. subst l1.
      destruct (IH l s1 eq_refl) as (Hl2 & d2 & D2 & L2). split; [assumption|]. exists (seen s s1 d1 d2). split; [econstructor; eassumption|].
      intros Hf. pose proof (derives_length D1). apply seen_le; auto.
  Qed.

  Lemma sep_iterates_inv : forall f a b i us x j, iterates (sep_then (fun e => e) (pure (comp f a)) (pure (comp f b))) (tt, tt) i us x j ->
    iterates (pure (comp f (Then b a))) tt i us tt j.
  Proof.
    intros f a b i us x j H. remember (tt, tt) as s0 eqn:H0 in H. clear H0. induction H as [s i|s i u s1 i1 us s2 i2 Hp H IH].
    - constructor.
    - econstructor; [|apply IH]. pose proof (f_equal fst Hp) as Hp'. destruct s as [[] []]. rewrite sep_stop in Hp'. unfold pure. rewrite Hp'. reflexivity.
  Qed.

  Lemma no_loop : forall f l s us u j a, sound_at f a -> iterates (pure (comp f a)) tt (mkInput l s) us u j -> gives_up (pure (comp f a)) u j ->
    exists d1 d2, steps a s us (buf j) d1 /\ derives a (buf j) None d2 /\ (l = false -> seen s (buf j) d1 d2 <= length s).
  Proof.
    intros f l s us u [lj sj] a Ha Hi Hg. destruct (iterates_steps Ha Hi) as (Hl & d1 & D1 & L1). cbn [last buf] in *. subst lj. destruct Hg as [(b & e & Hg)|(n & Hg & Hl)]; cbn in Hg.
    - destruct (sound_error _ _ Ha Hg) as (d2 & D2 & L2). exists d1, d2. split; [assumption|split; [assumption|]]. intros Hf. pose proof (steps_length D1). apply seen_le; auto.
    - cbn in Hl. subst l. destruct (sound_incomplete _ Ha Hg) as (d2 & D2). exists d1, d2. split; [assumption|split; [assumption|discriminate]].
  Qed.

  Lemma nonempty_full : nonempty RFull.
  Proof. exists 0. exact Logic.I. Qed.
  Lemma nonempty_from : nonempty (RFrom 1).
  Proof. exists 1. cbn. lia. Qed.
  Lemma nonempty_exact : forall n, nonempty (RExact n).
  Proof. intros n. exists n. reflexivity. Qed.

  Lemma sound_star : forall f a, sound_at f a -> sound_at f (Star a).
  Proof.
    intros f a Ha l s. rewrite comp_eq. unfold many. destruct (bmany f (vec_collector (tree I)) RFull tt (pure (comp f a)) (mkInput l s)) as [j us|b e|n| |] eqn:E; cbn [map]; auto.
    - apply bmany_sound in E; [|exact nonempty_full|discriminate]. inversion E as [us' u j' Hi _ Hst| | |]; subst. destruct Hst as [Hst|Hst]; [exfalso; apply Hst, may_grow_full|].
      destruct (iterates_steps Ha Hi) as (Hl & _). destruct (no_loop Ha Hi Hst) as (d1 & d2 & D1 & D2 & L). split; [assumption|]. eexists. split; [econstructor; eassumption|assumption].
    - apply bmany_sound in E; [|exact nonempty_full|discriminate]. inversion E as [|us' u j' b' e' Hi Hn _ _| |]; subst. exfalso. apply Hn. exact Logic.I.
    - apply bmany_sound in E; [|exact nonempty_full|discriminate]. inversion E as [| |us' u j' n' Hi _ Hp Hor|]; subst. intros ->. destruct (iterates_steps Ha Hi) as (Hl & _).
      exfalso. destruct Hor as [Hor|Hor]; [apply Hor; exact Logic.I|congruence].
    - apply bmany_sound in E; [|exact nonempty_full|discriminate]. inversion E as [| | |us' u j' Hi _ Hp]; subst. exact (sound_panic _ Ha Hp).
  Qed.

  Lemma sound_plus : forall f a, sound_at f a -> sound_at f (Plus a).
  Proof.
    intros f a Ha l s. rewrite comp_eq. unfold many1. destruct (bmany f (vec_collector (tree I)) (RFrom 1) tt (pure (comp f a)) (mkInput l s)) as [j us|b e|n| |] eqn:E; cbn [map]; auto.
    - apply bmany_sound in E; [|exact nonempty_from|discriminate]. inversion E as [us' u j' Hi Hr Hst| | |]; subst. destruct Hst as [Hst|Hst]; [exfalso; apply Hst, may_grow_from|].
      destruct (iterates_steps Ha Hi) as (Hl & _). destruct (no_loop Ha Hi Hst) as (d1 & d2 & D1 & D2 & L). split; [assumption|]. eexists. split; [|exact L].
      econstructor; try eassumption. destruct us; [cbn in Hr; lia|discriminate].
    - apply bmany_sound in E; [|exact nonempty_from|discriminate]. inversion E as [|us' u j' b' e' Hi Hn _ Hp| |]; subst. cbn in Hn. destruct us'; [|cbn in Hn; lia]. inversion Hi; subst.
      destruct (sound_error _ _ Ha Hp) as (d & D & L). exists d. split; [constructor; assumption|assumption].
    - apply bmany_sound in E; [|exact nonempty_from|discriminate]. inversion E as [| |us' u j' n' Hi _ Hp Hor|]; subst. intros ->. destruct (iterates_steps Ha Hi) as (Hl & _).
      destruct Hor as [Hor|Hor]; [|congruence]. cbn in Hor. destruct us'; [|cbn in Hor; lia]. inversion Hi; subst. destruct (sound_incomplete _ Ha Hp) as (d & D). exists d. constructor. assumption.
    - apply bmany_sound in E; [|exact nonempty_from|discriminate]. inversion E as [| | |us' u j' Hi _ Hp]; subst. exact (sound_panic _ Ha Hp).
  Qed.

  Lemma sound_times : forall f n a, sound_at f a -> sound_at f (Times n a).
  Proof.
    intros f n a Ha l s. rewrite comp_eq. unfold count. destruct (bmany f (vec_collector (tree I)) (RExact n) tt (pure (comp f a)) (mkInput l s)) as [j us|b e|m| |] eqn:E; cbn [map]; auto.
    - apply bmany_sound in E; [|apply nonempty_exact|discriminate]. inversion E as [us' u j' Hi Hr Hst| | |]; subst. cbn in Hr. subst n.
      destruct (iterates_steps Ha Hi) as (Hl & d & D & L). split; [assumption|]. exists d. split; [econstructor; eassumption|assumption].
    - apply bmany_sound in E; [|apply nonempty_exact|discriminate]. inversion E as [|us' u j' b' e' Hi Hn Hg Hp| |]; subst. apply may_grow_exact in Hg.
      destruct (no_loop Ha Hi (or_introl (ex_intro _ b (ex_intro _ e Hp)))) as (d1 & d2 & D1 & D2 & L). eexists. split; [eapply d_times_not; eassumption|assumption].
    - apply bmany_sound in E; [|apply nonempty_exact|discriminate]. inversion E as [| |us' u j' n' Hi Hg Hp Hor|]; subst. intros ->. apply may_grow_exact in Hg.
      destruct (iterates_steps Ha Hi) as (Hl & _). destruct (no_loop Ha Hi (or_intror (ex_intro _ m (conj Hp Hl)))) as (d1 & d2 & D1 & D2 & L). eexists. eapply d_times_not; eassumption.
    - apply bmany_sound in E; [|apply nonempty_exact|discriminate]. inversion E as [| | |us' u j' Hi _ Hp]; subst. exact (sound_panic _ Ha Hp).
  Qed.

  Lemma sound_then : forall f a b, sound_at f a -> sound_at f b -> sound_at f (Then a b).
  Proof.
    intros f a b Ha Hb l s. rewrite comp_eq. unfold then_. destruct (comp f a (mkInput l s)) as [[l1 s1] t|x e|n| |] eqn:E; cbn [bind]; auto.
    - destruct (sound_data _ _ Ha E) as (Hl & d1 & D1 & L1). cbn [last buf] in *. subst l1. pose proof (derives_length D1).
      destruct (comp f b (mkInput l s1)) as [j u|x e|n| |] eqn:F; cbn [map_err]; auto.
      + destruct (sound_data _ _ Hb F) as (Hl2 & d2 & D2 & L2). split; [assumption|]. eexists. split; [eapply d_then; eassumption|]. intros Hf. apply seen_le; auto.
      + destruct (sound_error _ _ Hb F) as (d2 & D2 & L2). eexists. split; [eapply d_then; eassumption|]. intros Hf. apply seen_le; auto.
      + intros ->. destruct (sound_incomplete _ Hb F) as (d2 & D2). eexists. eapply d_then; eassumption.
      + exact (sound_panic _ Hb F).
    - destruct (sound_error _ _ Ha E) as (d & D & L). exists d. split; [constructor; assumption|assumption].
    - intros ->. destruct (sound_incomplete _ Ha E) as (d & D). exists d. constructor. assumption.
    - exact (sound_panic _ Ha E).
  Qed.

  Lemma sound_seq : forall f a b, sound_at f a -> sound_at f b -> sound_at f (Seq a b).
  Proof.
    intros f a b Ha Hb l s. rewrite comp_eq. destruct (comp f a (mkInput l s)) as [[l1 s1] t|x e|n| |] eqn:E; cbn [bind]; auto.
    - destruct (sound_data _ _ Ha E) as (Hl & d1 & D1 & L1). cbn [last buf] in *. subst l1. pose proof (derives_length D1).
      destruct (comp f b (mkInput l s1)) as [j u|x e|n| |] eqn:F; cbn [map map_err]; auto.
      + destruct (sound_data _ _ Hb F) as (Hl2 & d2 & D2 & L2). split; [assumption|]. eexists. split; [eapply d_seq; eassumption|]. intros Hf. apply seen_le; auto.
      + destruct (sound_error _ _ Hb F) as (d2 & D2 & L2). eexists. split; [eapply d_seq_not2; eassumption|]. intros Hf. apply seen_le; auto.
      + intros ->. destruct (sound_incomplete _ Hb F) as (d2 & D2). eexists. eapply d_seq_not2; eassumption.
      + exact (sound_panic _ Hb F).
    - destruct (sound_error _ _ Ha E) as (d & D & L). exists d. split; [constructor; assumption|assumption].
    - intros ->. destruct (sound_incomplete _ Ha E) as (d & D). exists d. constructor. assumption.
    - exact (sound_panic _ Ha E).
  Qed.

  Lemma sound_sep : forall f a b, sound_at f a -> sound_at f b -> sound_at f (Sep a b).
  Proof.
    intros f a b Ha Hb l s. pose proof (sound_then Hb Ha) as Hba. rewrite comp_eq. destruct f as [|[|k]].
    - exact Logic.I.
    - set (A := comp 1 a) in *. set (B := comp 1 b) in *. unfold sep_by1, bmany, parse_many_from, run_iter. cbn [from_iter cact vec_collector cinit]. unfold iter_next. cbn [it_data it_ps it_buf].
      unfold sep_item, pure, ret, then_, bind. cbn [inspect]. destruct (A (mkInput l s)) as [j t|x e|n| |] eqn:E; cbn; auto. exact (sound_panic _ Ha E).
    - set (f := S (S k)) in *. unfold f at 1. rewrite sep_by1_char. unfold first_then, pure at 1. destruct (comp f a (mkInput l s)) as [[l1 s1] t|x e|n| |] eqn:E; cbn [map]; auto.
      + destruct (sound_data _ _ Ha E) as (Hl & d1 & D1 & L1). cbn [last buf] in *. subst l1. pose proof (derives_length D1) as Hlen.
        unfold many. destruct (bmany (S k) (vec_collector (tree I)) RFull (tt, tt) (sep_then (fun e => e) (pure (comp f a)) (pure (comp f b))) (mkInput l s1)) as [j us|x e|n| |] eqn:F; cbn [map]; auto.
        * apply bmany_sound in F; [|exact nonempty_full|discriminate]. inversion F as [us' u j' Hi _ Hst| | |]; subst. destruct Hst as [Hst|Hst]; [exfalso; apply Hst, may_grow_full|].
          apply sep_iterates_inv in Hi. destruct (iterates_steps Hba Hi) as (Hl2 & _).
          assert (Hg : gives_up (pure (comp f (Then b a))) tt j). { destruct u as [[] []]. unfold gives_up in *. rewrite sep_stop in Hst. exact Hst. }
          destruct (no_loop Hba Hi Hg) as (d2 & d3 & D2 & D3 & L). split; [assumption|]. eexists. split; [eapply d_sep; eassumption|]. intros Hf. apply seen_le; auto.
        * apply bmany_sound in F; [|exact nonempty_full|discriminate]. inversion F as [|us' u j' b' e' Hi Hn _ _| |]; subst. exfalso. apply Hn. exact Logic.I.
        * apply bmany_sound in F; [|exact nonempty_full|discriminate]. inversion F as [| |us' u j' n' Hi _ Hp Hor|]; subst. intros ->. apply sep_iterates_inv in Hi. destruct (iterates_steps Hba Hi) as (Hl2 & _).
          exfalso. destruct Hor as [Hor|Hor]; [apply Hor; exact Logic.I|congruence].
        * apply bmany_sound in F; [|exact nonempty_full|discriminate]. inversion F as [| | |us' u j' Hi _ Hp]; subst. destruct u as [[] []]. rewrite sep_stop in Hp. exact (sound_panic _ Hba Hp).
      + destruct (sound_error _ _ Ha E) as (d & D & L). exists d. split; [constructor; assumption|assumption].
      + intros ->. destruct (sound_incomplete _ Ha E) as (d & D). exists d. constructor. assumption.
      + exact (sound_panic _ Ha E).
  Qed.

  Lemma sound : forall f e, sound_at f e.
  Proof.
    induction f as [f IHf] using lt_wf_ind. induction e as [|p|w|p|a IHa b IHb|a IHa b IHb|a IHa b IHb|a IHa|a IHa|a IHa|a IHa|a IHa|n a IHa|a IHa b IHb|n].
    - intros l s. rewrite comp_eq. cbn. split; [reflexivity|]. exists 0. split; [constructor|lia].
    - intros l s. rewrite comp_eq. unfold satisfy. destruct s as [|x s]; cbn [buf first]; cbn.
      + intros _. exists 1. constructor.
      + destruct (p x) eqn:Hp; cbn; [split; [reflexivity|]|]; exists 1; (split; [constructor; assumption|lia]).
    - intros l s. rewrite comp_eq. destruct (string_total eqb w s) as [H|[(x & y & -> & H)|(x & y & n & -> & Hl & H)]].
      + rewrite (@string_short I v eqb w l s (length w - length s)) by lia. cbn [map]. intros _. exists (length w). constructor. intros x y -> Hs. apply same_items_length in Hs. rewrite app_length in H. lia.
      + rewrite (string_match v l y H). cbn. split; [reflexivity|]. exists (length w). split; [constructor; assumption|]. intros _. apply same_items_length in H. rewrite app_length. lia.
      + assert (Hn : forall x' y', x ++ y = x' ++ y' -> ~ same_items eqb w x').
        { intros x' y' He Hs. assert (Hx : x' = x).
          { pose proof (same_items_length Hs) as Hl'. apply (f_equal (firstn (length x))) in He. rewrite firstn_length_app in He. rewrite He. replace (length x) with (length x') by lia. rewrite firstn_length_app. reflexivity. }
          subst x'. destruct H as (p & q & Hp & Hq & Heq & _). revert Hp Hq Heq. clear - Hs. revert n. induction Hs as [|a b w x Hab Hs IH]; intros n Hp Hq Heq; destruct n; cbn in *; try discriminate; [congruence|eauto]. }
        rewrite (@string_mismatch_spec I v eqb w l x y n Hl H). destruct v; cbn; exists (length w); (split; [constructor; exact Hn|rewrite app_length; lia]).
    - intros l s. rewrite comp_eq. destruct (proj1 (take_while_spec p l s _) eq_refl) as [(x & c & y & -> & Hx & Hc & ->)|[(Hx & -> & ->)|(Hx & -> & ->)]]; cbn.
      + split; [reflexivity|]. eexists. split; [apply d_run; assumption|]. intros _. rewrite app_length. cbn. lia.
      + split; [reflexivity|]. eexists. split; [apply d_run_end; assumption|discriminate].
      + discriminate.
    - apply sound_seq; assumption.
    - apply sound_then; assumption.
    - intros l s. rewrite comp_eq. unfold or_. cbn [last]. destruct (comp f a (mkInput l s)) as [j t|x e|n| |] eqn:E; cbn [ret]; auto.
      + destruct (sound_data _ _ IHa E) as (Hl & d1 & D1 & L1). split; [assumption|]. exists d1. split; [constructor; assumption|assumption].
      + destruct (sound_error _ _ IHa E) as (d1 & D1 & L1). destruct (comp f b (mkInput l s)) as [j u|x' e'|n| |] eqn:F; auto.
        * destruct (sound_data _ _ IHb F) as (Hl & d2 & D2 & L2). split; [assumption|]. eexists. split; [eapply d_alt2; eassumption|]. intros Hf. specialize (L1 Hf). specialize (L2 Hf). lia.
        * destruct (sound_error _ _ IHb F) as (d2 & D2 & L2). eexists. split; [eapply d_alt2; eassumption|]. intros Hf. specialize (L1 Hf). specialize (L2 Hf). lia.
        * intros ->. destruct (sound_incomplete _ IHb F) as (d2 & D2). eexists. eapply d_alt2; eassumption.
        * exact (sound_panic _ IHb F).
      + destruct l; [|discriminate]. destruct (sound_incomplete _ IHa E) as (d1 & D1). destruct (comp f b (mkInput true s)) as [j u|x' e'|n'| |] eqn:F; auto.
        * destruct (sound_data _ _ IHb F) as (Hl & d2 & D2 & L2). split; [assumption|]. eexists. split; [eapply d_alt2; eassumption|discriminate].
        * destruct (sound_error _ _ IHb F) as (d2 & D2 & L2). eexists. split; [eapply d_alt2; eassumption|discriminate].
        * intros _. destruct (sound_incomplete _ IHb F) as (d2 & D2). eexists. eapply d_alt2; eassumption.
        * exact (sound_panic _ IHb F).
      + exact (sound_panic _ IHa E).
    - intros l s. rewrite comp_eq. unfold option_. cbn [last]. destruct (comp f a (mkInput l s)) as [j t|x e|n| |] eqn:E; cbn [ret]; auto.
      + destruct (sound_data _ _ IHa E) as (Hl & d1 & D1 & L1). split; [assumption|]. exists d1. split; [constructor; assumption|assumption].
      + destruct (sound_error _ _ IHa E) as (d1 & D1 & L1). cbn. split; [reflexivity|]. exists d1. split; [apply d_opt_not; assumption|assumption].
      + destruct l; [|discriminate]. destruct (sound_incomplete _ IHa E) as (d1 & D1). cbn. split; [reflexivity|]. exists d1. split; [apply d_opt_not; assumption|discriminate].
      + exact (sound_panic _ IHa E).
    - intros l s. rewrite comp_eq. unfold look_ahead. destruct (comp f a (mkInput l s)) as [j t|x e|n| |] eqn:E; cbn; auto.
      + destruct (sound_data _ _ IHa E) as (Hl & d1 & D1 & L1). split; [reflexivity|]. exists d1. split; [econstructor; eassumption|assumption].
      + destruct (sound_error _ _ IHa E) as (d1 & D1 & L1). exists d1. split; [apply d_ahead_not; assumption|assumption].
      + intros ->. destruct (sound_incomplete _ IHa E) as (d1 & D1). exists d1. apply d_ahead_not. assumption.
      + exact (sound_panic _ IHa E).
    - intros l s. rewrite comp_eq. unfold matched_by. cbn [buf]. destruct (comp f a (mkInput l s)) as [[l1 s1] t|x e|n| |] eqn:E; cbn [buf]; auto.
      + destruct (sound_data _ _ IHa E) as (Hl & d1 & D1 & L1). cbn [last buf] in *. subst l1. destruct (proj1 derives_suffix _ _ _ _ D1 _ _ eq_refl) as [x ->].
        rewrite app_length. destruct (Nat.ltb_spec (length x + length s1) (length s1)); [lia|]. replace (length x + length s1 - length s1) with (length x) by lia. rewrite firstn_length_app. cbn.
        split; [reflexivity|]. exists d1. split; [constructor; assumption|rewrite app_length in L1; assumption].
      + destruct (sound_error _ _ IHa E) as (d1 & D1 & L1). cbn. exists d1. split; [apply d_slice_not; assumption|assumption].
      + cbn. intros ->. destruct (sound_incomplete _ IHa E) as (d1 & D1). exists d1. apply d_slice_not. assumption.
      + exact (sound_panic _ IHa E).
      + exact Logic.I.
    - apply sound_star. assumption.
    - apply sound_plus. assumption.
    - apply sound_times. assumption.
    - apply sound_sep; assumption.
    - intros l s. rewrite comp_eq. destruct f as [|f]; [exact Logic.I|]. pose proof (IHf f (Nat.lt_succ_diag_r f) (g n) l s) as H. destruct (comp f (g n) (mkInput l s)) as [j t|x e|m| |]; auto.
      + destruct H as (Hl & d & D & L). split; [assumption|]. exists d. split; [constructor; assumption|assumption].
      + destruct H as (d & D & L). exists d. split; [constructor; assumption|assumption].
      + intros ->. destruct (H eq_refl) as (d & D). exists d. constructor. assumption.
  Qed.
End Peg.
