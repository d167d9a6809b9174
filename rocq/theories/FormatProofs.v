(** Proofs for C84. *)
From Coq Require Import List Bool Arith Lia.
From Verif Require Import Base Parsers Combinators SpecBase SpecSafe SpecIter SpecSep SpecLoop SpecLaws SpecFormat Format
  BaseProofs IterProofs ManyProofs SkipProofs SepProofs TermProofs TillProofs SafeProofs StableProofs UnfoldProofs LawsProofs.
Import ListNotations.

Set Implicit Arguments.

Lemma bind_id_inv : forall I T U E (r : pres I T E) (f : input I -> T -> pres I U E) j v, bind (fun e => e) r f = Data j v ->
  exists k x, r = Data k x /\ f k x = Data j v.
Proof. intros I T U E [k x|b e|n| |] f j v H; cbn [bind] in H; try discriminate. rewrite honest_map_err_id in H by exact k. eauto. Qed.
Lemma bind_id_data : forall I T U E (j : input I) (x : T) (f : input I -> T -> pres I U E), bind (fun e => e) (Data j x) f = f j x.
Proof. intros. cbn [bind]. apply honest_map_err_id. exact j. Qed.
Lemma map_inv : forall I T U E (g : T -> U) (r : pres I T E) j v, map g r = Data j v -> exists x, r = Data j x /\ g x = v.
Proof. intros I T U E g [k x|b e|n| |] j v H; cbn [map] in H; try discriminate. inversion H; subst. eauto. Qed.

(** * What is read was written *)
Section Only.
  Context {I : Type}.
  Implicit Types (l : bool) (s : list I).

  Lemma only_map : forall A B E (g : A -> B) W (p : parser I A E), reads_only W p -> reads_only (fun v t => exists u, g u = v /\ W u t) (fun i => map g (p i)).
  Proof. intros A B E g W p H l s j v Hv. apply map_inv in Hv. destruct Hv as (x & Hx & <-). destruct (H _ _ _ _ Hx) as (Hl & t & Ht & ->). split; [assumption|]. exists t. eauto. Qed.

  Lemma only_bind : forall A B E (Wa : notation_ I A) (Wb : A -> notation_ I B) (p : parser I A E) (q : A -> parser I B E),
    reads_only Wa p -> (forall v, reads_only (Wb v) (q v)) ->
    reads_only (fun v t => exists ta tb, t = ta ++ tb /\ Wa (fst v) ta /\ Wb (fst v) (snd v) tb)
      (fun i => bind (fun e => e) (p i) (fun i x => map (pair x) (q x i))).
  Proof.
    intros A B E Wa Wb p q Hp Hq l s j v Hv. apply bind_id_inv in Hv. destruct Hv as ([l1 s1] & x & Hx & Hv). apply map_inv in Hv. destruct Hv as (y & Hy & <-).
    destruct (Hp _ _ _ _ Hx) as (Hl & t & Ht & ->). cbn [last buf] in *. subst l1. destruct (Hq _ _ _ _ _ Hy) as (Hl2 & u & Hu & ->). split; [assumption|].
    exists (t ++ u). split; [|apply app_assoc]. exists t, u. auto.
  Qed.

  Lemma only_or : forall A E (W V : notation_ I A) (p q : parser I A E), reads_only W p -> reads_only V q -> reads_only (fun v t => W v t \/ V v t) (or_ p q).
  Proof.
    intros A E W V p q Hp Hq l s j v Hv. unfold or_ in Hv. destruct (p (mkInput l s)) as [k x|b e|n| |] eqn:Ep; try discriminate.
    - unfold ret in Hv. inversion Hv; subst. destruct (Hp _ _ _ _ Ep) as (Hl & t & Ht & ->). eauto.
    - destruct (Hq _ _ _ _ Hv) as (Hl & t & Ht & ->). eauto.
    - destruct (last (mkInput l s)) eqn:El; [|discriminate]. destruct (Hq _ _ _ _ Hv) as (Hl & t & Ht & ->). eauto.
  Qed.

  Lemma only_ext : forall A E (W V : notation_ I A) (p : parser I A E), (forall v t, W v t -> V v t) -> reads_only W p -> reads_only V p.
  Proof. intros A E W V p H Hp l s j v Hv. destruct (Hp _ _ _ _ Hv) as (Hl & t & Ht & ->). eauto. Qed.

  Lemma only_option : forall A E (W : notation_ I A) (p : parser I A E), reads_only W p ->
    reads_only (fun v t => match v with Some x => W x t | None => t = [] end) (option_ (fun i => map Some (p i)) None).
  Proof.
    intros A E W p Hp l s j v Hv. unfold option_ in Hv. destruct (p (mkInput l s)) as [k x|b e|n| |] eqn:Ep; cbn [map] in Hv; try discriminate; unfold ret in Hv.
    - inversion Hv; subst. destruct (Hp _ _ _ _ Ep) as (Hl & t & Ht & ->). eauto.
    - inversion Hv; subst. cbn. split; [reflexivity|]. exists []. auto.
    - destruct (last (mkInput l s)) eqn:El; [|discriminate]. inversion Hv; subst. cbn in *. split; [reflexivity|]. exists []. auto.
  Qed.

  Lemma only_iterates : forall St A E (W : notation_ I A) (p : sparser St I A E), (forall x, reads_only W (fun i => fst (p x i))) ->
    forall x l s us y j, iterates p x (mkInput l s) us y j -> last j = l /\ exists t, each_written W us t /\ s = t ++ buf j.
  Proof.
    intros St A E W p Hp x l s us y j H. remember (mkInput l s) as i eqn:Hi. revert l s Hi. induction H as [x i|x i u x1 i1 us x2 i2 Hu H IH]; intros l s ->.
    - split; [reflexivity|]. exists []. split; [constructor|reflexivity].
    - pose proof (f_equal fst Hu) as Hu1. cbn [fst] in Hu1. destruct (Hp _ _ _ _ _ Hu1) as (Hl & t & Ht & ->). destruct i1 as [l1 s1]. cbn [last buf] in *. subst l1.
      destruct (IH _ _ eq_refl) as (Hl2 & w & Hw & ->). split; [assumption|]. exists (t ++ w). split; [constructor; assumption|apply app_assoc].
  Qed.

  Lemma only_bmany : forall St A E (W : notation_ I A) (p : sparser St I A E), (forall x, reads_only W (fun i => fst (p x i))) -> forall r fuel x, nonempty r ->
    reads_only (fun vs t => in_range r (length vs) /\ each_written W vs t) (fun i => bmany fuel (vec_collector A) r x p i).
  Proof.
    intros St A E W p Hp r fuel x Hr l s j v Hv. apply bmany_sound in Hv; [|assumption|discriminate]. inversion Hv as [us y k Hi Hin _| | |]; subst.
    destruct (only_iterates Hp Hi) as (Hl & t & Ht & ->). split; [assumption|]. exists t. auto.
  Qed.

  Lemma only_then : forall A B E (Wa : notation_ I A) (Wb : notation_ I B) (p : parser I A E) (q : parser I B E), reads_only Wa p -> reads_only Wb q ->
    forall x, reads_only (after Wb Wa) (fun i => fst (sep_then (fun e : E => e) (pure p) (pure q) x i)).
  Proof.
    intros A B E Wa Wb p q Hp Hq x l s j v Hv. unfold sep_then, pure in Hv. destruct (q (mkInput l s)) as [[l1 s1] y|b e|n| |] eqn:Eq; cbn [fst snd] in Hv; try discriminate.
    destruct (Hq _ _ _ _ Eq) as (Hl & t & Ht & ->). cbn [last buf] in *. subst l1. destruct (Hp _ _ _ _ Hv) as (Hl & u & Hu & ->). split; [assumption|].
    exists (t ++ u). split; [|apply app_assoc]. exists y, t, u. auto.
  Qed.

  Lemma only_sep1 : forall A B E (Wa : notation_ I A) (Wb : notation_ I B) (p : parser I A E) (q : parser I B E), reads_only Wa p -> reads_only Wb q -> forall fuel,
    reads_only (sep_written Wa Wb) (fun i => sep_by1 (S (S fuel)) (vec_collector A) (fun e => e) tt tt (pure p) (pure q) i).
  Proof.
    intros A B E Wa Wb p q Hp Hq fuel l s j v Hv. rewrite sep_by1_char in Hv. unfold first_then, pure at 1 in Hv.
    destruct (p (mkInput l s)) as [[l1 s1] x|b e|n| |] eqn:Ep; try discriminate. destruct (Hp _ _ _ _ Ep) as (Hl & t & Ht & ->). cbn [last buf] in *. subst l1.
    destruct (many _ _ _ _ _) as [k us|b e|n| |] eqn:Em; try discriminate. inversion Hv; subst.
    assert (Hr : nonempty RFull) by (exists 0; exact Logic.I). destruct (@only_bmany (unit * unit) A E (after Wb Wa) _ (only_then Hp Hq) RFull (S fuel) (tt, tt) Hr _ _ _ _ Em) as (Hl & w & (_ & Hw) & ->).
    split; [assumption|]. exists (t ++ w). split; [|apply app_assoc]. exists x, t, us, w. auto.
  Qed.

  Lemma only_sep : forall A B E (Wa : notation_ I A) (Wb : notation_ I B) (p : parser I A E) (q : parser I B E), reads_only Wa p -> reads_only Wb q -> forall fuel,
    reads_only (fun vs t => (vs = [] /\ t = []) \/ sep_written Wa Wb vs t) (fun i => sep_by (S (S fuel)) (vec_collector A) (fun e => e) tt tt (pure p) (pure q) i).
  Proof.
    intros A B E Wa Wb p q Hp Hq fuel l s j v Hv. rewrite sep_by_option in Hv.
    - unfold option_ in Hv. destruct (sep_by1 _ _ _ _ _ _ _ _) as [k us|b e|n| |] eqn:Es; try discriminate; unfold ret in Hv.
      + inversion Hv; subst. destruct (only_sep1 Hp Hq fuel _ _ Es) as (Hl & t & Ht & ->). eauto.
      + inversion Hv; subst. cbn. split; [reflexivity|]. exists []. auto.
      + destruct (last (mkInput l s)); [|discriminate]. inversion Hv; subst. cbn. split; [reflexivity|]. exists []. auto.
    - intros x [l1 s1] k u x1 H. injection H as H _. destruct (Hp _ _ _ _ H) as (<- & _). reflexivity.
    - intros x [l1 s1] k u x1 H. injection H as H _. destruct (Hq _ _ _ _ H) as (<- & _). reflexivity.
  Qed.

  Lemma iterates_till_iterates : forall St A V E N r (p : sparser St I A E) (e : parser I V N) k x i us y j, iterates_till r p e k x i us y j -> iterates p x i us y j.
  Proof. induction 1; econstructor; eauto. Qed.

  Lemma only_till : forall A B E (Wa : notation_ I A) (Wb : notation_ I B) (p : parser I A E) (q : parser I B E), reads_only Wa p -> reads_only Wb q -> forall fuel,
    reads_only (fun vs t => exists u v w, t = u ++ w /\ each_written Wa vs u /\ Wb v w) (fun i => many_till fuel (vec_collector A) tt tt (pure p) (pure q) i).
  Proof.
    intros A B E Wa Wb p q Hp Hq fuel l s j v Hv. assert (Hr : nonempty RFull) by (exists 0; exact Logic.I).
    destruct (@bmany_till_char unit I A B E E (pure p) q RFull Hr) as [Hs _]. specialize (Hs fuel tt (mkInput l s) _ Hv ltac:(discriminate)).
    destruct Hs as (res & Ho & Hres). cbn in Hres. subst res. inversion Ho as [us y i k x Hi _ Hx| | | | |]; subst. apply iterates_till_iterates in Hi.
    destruct (@only_iterates unit A E Wa (pure p) (fun _ => Hp) _ _ _ _ _ _ Hi) as (Hl & t & Ht & ->). destruct i as [l1 s1]. cbn [last buf] in *. subst l1.
    destruct (Hq _ _ _ _ Hx) as (Hl & w & Hw & ->). split; [assumption|]. exists (t ++ w). split; [|apply app_assoc]. exists t, x, w. auto.
  Qed.

  Lemma only_slice : forall A E (W : notation_ I A) (p : parser I A E), reads_only W p -> reads_only (fun v t => fst v = t /\ W (snd v) t) (matched_by p).
  Proof.
    intros A E W p Hp l s j v Hv. unfold matched_by in Hv. destruct (p (mkInput l s)) as [k x|b e|n| |] eqn:Ep; try discriminate.
    destruct (Hp _ _ _ _ Ep) as (Hl & t & Ht & ->). cbn [buf] in *. destruct (length (t ++ buf k) <? length (buf k)); [discriminate|]. unfold ret in Hv. inversion Hv; subst.
    split; [reflexivity|]. exists t. split; [|reflexivity]. cbn [fst snd]. rewrite app_length, Nat.add_sub, firstn_app, firstn_all, Nat.sub_diag. cbn. rewrite app_nil_r. auto.
  Qed.
End Only.

(** * Formats: well-behaved, and only what was written *)
Section Reader.
  Context {I : Type}.
  Variable v : bool.
  Variable eqb : I -> I -> bool.
  Variable xt : nat.

  Lemma forall_firstn : forall (c : I -> bool) n s, (forall k x, k < n -> nth_error s k = Some x -> c x = true) -> n <= length s -> Forall (fun x => c x = true) (firstn n s).
  Proof.
    intros c n s H Hn. apply Forall_forall. intros x Hx. apply In_nth_error in Hx. destruct Hx as [k Hk]. apply (H k).
    - assert (k < length (firstn n s)) by (apply nth_error_Some; congruence). rewrite firstn_length in *. lia.
    - assert (k < length (firstn n s)) by (apply nth_error_Some; congruence). rewrite firstn_length in H0.
      rewrite <- (firstn_skipn n s). rewrite nth_error_app1; [assumption|]. rewrite firstn_length. lia.
  Qed.

  Lemma position_run : forall (c : I -> bool) s, exists x y, s = x ++ y /\ Forall (fun a => c a = true) x /\
    position (fun a => Bool.eqb (c a) false) s = match y with [] => None | _ => Some (length x) end /\ match y with [] => True | a :: _ => c a = false end.
  Proof.
    intros c. induction s as [|a s (x & y & -> & Hx & Hp & Hy)].
    - exists [], []. repeat split; constructor.
    - destruct (c a) eqn:Ha.
      + exists (a :: x), y. repeat split; auto. cbn. rewrite Ha. cbn. rewrite Hp. destruct y; reflexivity.
      + exists [], (a :: x ++ y). repeat split; auto. cbn. rewrite Ha. reflexivity.
  Qed.

  Lemma only_span : forall c, reads_only (fun w t => t = w /\ Forall (fun x => c x = true) w) (@take_while I c).
  Proof.
    intros c l s j w H. unfold take_while in H. cbn [buf last] in H. destruct (position_run c s) as (x & y & -> & Hx & Hp & Hy). rewrite Hp in H. destruct y as [|a y].
    - destruct l; [|discriminate]. unfold ret, replace in H. cbn in H. inversion H; subst. cbn. rewrite app_nil_r. split; [reflexivity|]. exists x. rewrite app_nil_r. auto.
    - unfold ret, replace in H. cbn in H. inversion H; subst. cbn. split; [reflexivity|].
      rewrite firstn_app, firstn_all, Nat.sub_diag, skipn_app, skipn_all, Nat.sub_diag. cbn. rewrite app_nil_r. exists x. auto.
  Qed.
  Lemma only_span1 : forall c : I -> bool, reads_only (fun w t => t = w /\ Forall (fun x => c x = true) w /\ w <> []) (take_while1 v c).
  Proof.
    intros c l s j w H. unfold take_while1 in H. cbn [buf last] in H. destruct (position_run c s) as (x & y & -> & Hx & Hp & Hy). rewrite Hp in H. destruct y as [|a y].
    - rewrite app_nil_r in *. destruct x as [|b x]; cbn [length Nat.eqb negb andb] in H; [destruct l; discriminate|]. destruct l; [|discriminate].
      unfold ret, replace in H. cbn in H. inversion H; subst. cbn. split; [reflexivity|]. exists (b :: x). rewrite app_nil_r. split; [|reflexivity]. split; [reflexivity|]. split; [assumption|discriminate].
    - destruct x as [|b x]; [discriminate|]. cbn [length] in H. unfold ret, replace in H. cbn [buf last] in H. inversion H; subst. cbn [buf last]. split; [reflexivity|].
      change (S (length x)) with (length (b :: x)). rewrite firstn_app, firstn_all, Nat.sub_diag, skipn_app, skipn_all, Nat.sub_diag. cbn. rewrite app_nil_r.
      exists (b :: x). split; [|reflexivity]. split; [reflexivity|]. split; [assumption|discriminate].
  Qed.

  Lemma grounded_honest : forall T (f : fmt I T), grounded f -> well_behaved (reader v eqb xt f).
  Proof.
    assert (Hb : forall T E (p : parser I T E), built p -> well_behaved p) by (intros; apply built_well_behaved; assumption).
    induction f as [w|c|c|c|n|T0 W N F X p|A B g f IH|A B a IHa b IHb|A B a IHa b IHb|A B a IHa b IHb|A a IHa|r A a IHa|r A a IHa|A B a IHa s IHs|A B a IHa s IHs|A B a IHa e IHe|A a IHa];
      cbn [grounded reader]; intros Hg.
    - apply Hb. apply (b_map (fun _ => tt)). constructor.
    - apply Hb. constructor.
    - apply Hb. constructor.
    - apply Hb. constructor.
    - apply Hb. constructor.
    - apply Hg.
    - intros i. specialize (IH Hg i). destruct (reader v eqb xt f i); cbn in *; auto.
    - intros i. apply honest_bind; [apply IHa, Hg|]. intros j t. pose proof (IHb (proj2 Hg) j) as H. destruct (reader v eqb xt b j); cbn in *; auto.
    - intros i. apply honest_bind; [apply IHa, Hg|]. intros j t. pose proof (IHb t (proj2 Hg t) j) as H. destruct (reader v eqb xt (b t) j); cbn in *; auto.
    - intros i. unfold or_. pose proof (IHa (proj1 Hg) i) as H. destruct (reader v eqb xt a i) as [j t|? ?|?| |]; cbn in *; auto;
        pose proof (IHb (proj2 Hg) i) as H1; [|destruct (last i); [|exact H]]; destruct (reader v eqb xt b i); cbn in *; auto.
    - intros i. unfold option_. pose proof (IHa Hg i) as H. destruct (reader v eqb xt a i) as [j t|? ?|?| |]; cbn in *; auto; [|destruct (last i); [|exact H]]; cbn; auto with safe.
    - intros i. apply bmany_honest. intros ? j. exact (IHa (proj2 Hg) j).
    - intros i. apply bskip_honest. intros ? j. exact (IHa (proj2 Hg) j).
    - intros i. apply bmany_honest. apply sep_item_honest; intros ? j; [exact (IHa (proj1 Hg) j)|exact (IHs (proj2 Hg) j)].
    - intros i. apply bmany_honest. apply sep_item_honest; intros ? j; [exact (IHa (proj1 Hg) j)|exact (IHs (proj2 Hg) j)].
    - intros i. apply bmany_till_honest; intros ? j; [exact (IHa (proj1 Hg) j)|exact (IHe (proj2 Hg) j)].
    - intros i. unfold matched_by. pose proof (IHa Hg i) as H. destruct (reader v eqb xt a i) as [j t|? ?|?| |]; auto. destruct (length (buf i) <? length (buf j)); cbn in *; auto.
  Qed.

  Lemma skip_fine : forall r A (p : parser I A (error I)), nonempty r -> well_behaved p -> skip_agrees r (pure p).
  Proof.
    intros [a b|a| |b|n] A p Hr Hp; cbn; auto.
    - destruct Hr as [k Hk]. cbn in Hk. lia.
    - intros s i s' H. injection H as H _. specialize (Hp i). rewrite H in Hp. cbn in Hp. lia.
  Qed.

  Lemma grounded_only : forall T (f : fmt I T), grounded f -> reads_only (written eqb f) (reader v eqb xt f).
  Proof.
    induction f as [w|c|c|c|n|T0 W N F X p|A B g f IH|A B a IHa b IHb|A B a IHa b IHb|A B a IHa b IHb|A a IHa|r A a IHa|r A a IHa|A B a IHa s IHs|A B a IHa s IHs|A B a IHa e IHe|A a IHa];
      cbn [grounded reader written]; intros Hg.
    - intros l s j u H. apply map_inv in H. destruct H as (x & H & _). destruct (string_total eqb w s) as [Hl|[(y & z & -> & Hs)|(y & z & n & -> & Hl & Hs)]].
      + rewrite (@string_short I v eqb w l s (length w - length s)) in H by lia. discriminate.
      + rewrite string_match in H by assumption. inversion H; subst. cbn. eauto.
      + rewrite (@string_mismatch_spec I v eqb w l y z n) in H by assumption. destruct v; discriminate.
    - intros l s j x H. unfold satisfy in H. destruct s as [|y s]; cbn in H; [discriminate|]. destruct (c y) eqn:Hc; cbn in H; inversion H; subst. cbn. split; [reflexivity|]. exists [x]. auto.
    - apply only_span.
    - apply only_span1.
    - intros l s j x H. unfold take in H. cbn [buf] in H. destruct (Nat.leb_spec n (length s)); [|discriminate]. unfold ret, replace in H. cbn in H. inversion H; subst. cbn. split; [reflexivity|].
      exists (firstn n s). rewrite firstn_length, firstn_skipn. split; [split; [reflexivity|lia]|reflexivity].
    - apply Hg.
    - apply (only_map g). auto.
    - apply (@only_bind I A B (error I) (written eqb a) (fun _ => written eqb b) (reader v eqb xt a) (fun _ => reader v eqb xt b)); [apply IHa, Hg|intros _; apply IHb, Hg].
    - apply (@only_bind I A B (error I) (written eqb a) (fun x => written eqb (b x)) (reader v eqb xt a) (fun x => reader v eqb xt (b x))); [apply IHa, Hg|intros x; apply IHb, Hg].
    - eapply only_ext; [|apply only_or; apply only_map; [apply IHa, Hg|apply IHb, Hg]]. intros u t [(x & <- & H)|(x & <- & H)]; exact H.
    - apply only_option. auto.
    - intros l s j u H. eapply (@only_bmany I unit A (error I) (written eqb a) (pure (reader v eqb xt a)) (fun _ => IHa (proj2 Hg)) r); [apply Hg|exact H].
    - intros l s j u H. pose proof (skip_fine (proj1 Hg) (grounded_honest a (proj2 Hg))) as Hs.
      destruct (@skip_many_lockstep unit I A (error I) (pure (reader v eqb xt a)) r Hs (steps_for xt (mkInput l s)) tt (mkInput l s)) as [H1 _].
      rewrite H in H1. specialize (H1 ltac:(discriminate)). apply map_inv in H1. destruct H1 as (vs & H1 & _).
      destruct (@only_bmany I unit A (error I) (written eqb a) (pure (reader v eqb xt a)) (fun _ => IHa (proj2 Hg)) r _ _ (proj1 Hg) _ _ _ _ H1) as (Hl & t & Ht & ->). eauto.
    - intros l x j u H. unfold steps_for in H. replace (length (buf (mkInput l x)) + 2 + xt) with (S (S (length (buf (mkInput l x)) + xt))) in H by lia.
      eapply (only_sep (IHa (proj1 Hg)) (IHs (proj2 Hg))). exact H.
    - intros l x j u H. unfold steps_for in H. replace (length (buf (mkInput l x)) + 2 + xt) with (S (S (length (buf (mkInput l x)) + xt))) in H by lia.
      eapply (only_sep1 (IHa (proj1 Hg)) (IHs (proj2 Hg))). exact H.
    - intros l x j u H. eapply (only_till (IHa (proj1 Hg)) (IHe (proj2 Hg))). exact H.
    - apply only_slice. auto.
  Qed.
End Reader.

(** * What is written is read back *)
Section Laws.
  Context {I : Type}.

  (** Starts, reads back, refuses, answers. *)
  Definition law {T E} (W : notation_ I T) (N : bool) (F X : I -> Prop) (p : parser I T E) : Prop :=
    starts W N F /\ reads_back W X p /\ refuses N F p /\ answers_all p.

  Lemma map_fails : forall A B E (g : A -> B) (p : parser I A E) i, fails_on p i -> fails_on (fun i => map g (p i)) i.
  Proof. intros A B E g p i [(b & e & H)|(n & H)]; [left|right]; rewrite H; cbn; eauto. Qed.

  Lemma map_answers : forall A B E (g : A -> B) (p : parser I A E), answers_all p -> answers_all (fun i => map g (p i)).
  Proof. intros A B E g p H i. specialize (H i). destruct (p i); cbn; split; try discriminate; tauto. Qed.

  Lemma law_map : forall A B E (g : A -> B) W N F X (p : parser I A E), law W N F X p -> law (fun v t => exists u, g u = v /\ W u t) N F X (fun i => map g (p i)).
  Proof.
    intros A B E g W N F X p (Hs & Hb & Hr & Ha). repeat split.
    - intros v t (u & _ & H). exact (Hs _ _ H).
    - intros v t rest (u & <- & H) Hc. rewrite (Hb _ _ _ H Hc). reflexivity.
    - intros s Hc. specialize (Hr s Hc). destruct N; [|apply map_fails; exact Hr]. destruct Hr as [u ->]. eexists; reflexivity.
    - apply (map_answers g Ha).
    - apply (map_answers g Ha).
  Qed.

  Lemma bind_fails : forall A B E (p : parser I A E) (q : input I -> A -> pres I B E) i, fails_on p i -> fails_on (fun i => bind (fun e => e) (p i) q) i.
  Proof. intros A B E p q i [(b & e & H)|(n & H)]; [left|right]; rewrite H; cbn; eauto. Qed.

  Lemma bind_answers : forall A B E (p : parser I A E) (q : A -> parser I B E), answers_all p -> (forall v, answers_all (q v)) ->
    answers_all (fun i => bind (fun e => e) (p i) (fun i x => map (pair x) (q x i))).
  Proof.
    intros A B E p q Hp Hq i. specialize (Hp i). destruct (p i) as [j x|b e|n| |]; try (cbn; split; [discriminate|discriminate]); try tauto.
    rewrite bind_id_data. apply (map_answers (pair x) (Hq x)).
  Qed.

  Lemma bind_back : forall A B E (Wa : notation_ I A) (Wb : A -> notation_ I B) Nb Fb Xa Xb (p : parser I A E) (q : A -> parser I B E) (X : I -> Prop),
    reads_back Wa Xa p -> (forall v, law (Wb v) (Nb v) (Fb v) (Xb v) (q v)) -> (forall v, apart Xa (Fb v)) -> (forall v x, Xb v x \/ (Nb v = true /\ Xa x) -> X x) ->
    reads_back (fun v t => exists ta tb, t = ta ++ tb /\ Wa (fst v) ta /\ Wb (fst v) (snd v) tb) X
      (fun i => bind (fun e => e) (p i) (fun i x => map (pair x) (q x i))).
  Proof.
    intros A B E Wa Wb Nb Fb Xa Xb p q X Hp Hq Ha HX [x y] t rest (ta & tb & -> & Hwa & Hwb) Hc. cbn [fst snd] in *. destruct (Hq x) as (Hs & Hb & _ & _). rewrite <- app_assoc.
    rewrite (Hp _ _ _ Hwa).
    - rewrite bind_id_data, (Hb _ _ _ Hwb); [reflexivity|]. destruct rest; cbn in *; auto. intros H. apply Hc. apply (HX x). auto.
    - specialize (Hs _ _ Hwb). destruct tb as [|z tb]; cbn [app]; [|cbn; intros H; exact (Ha x z H Hs)]. destruct rest; cbn in *; auto. intros H. apply Hc. apply (HX x). auto.
  Qed.

  Lemma law_seq : forall A B E (Wa : notation_ I A) (Wb : notation_ I B) Na Nb Fa Fb Xa Xb (p : parser I A E) (q : parser I B E),
    law Wa Na Fa Xa p -> law Wb Nb Fb Xb q -> apart Xa Fb ->
    law (fun v t => exists ta tb, t = ta ++ tb /\ Wa (fst v) ta /\ Wb (snd v) tb) (Na && Nb) (fun x => Fa x \/ (Na = true /\ Fb x)) (fun x => Xb x \/ (Nb = true /\ Xa x))
      (fun i => bind (fun e => e) (p i) (fun i x => map (pair x) (q i))).
  Proof.
    intros A B E Wa Wb Na Nb Fa Fb Xa Xb p q Hp Hq Ha. split; [|split; [|split]].
    - intros [x y] t (ta & tb & -> & Hwa & Hwb). cbn [fst snd] in *. destruct Hp as (Hsa & _). destruct Hq as (Hsb & _). specialize (Hsa _ _ Hwa). specialize (Hsb _ _ Hwb).
      destruct ta; [|left; exact Hsa]. rewrite Hsa. cbn. destruct tb; auto.
    - apply (@bind_back A B E Wa (fun _ => Wb) (fun _ => Nb) (fun _ => Fb) Xa (fun _ => Xb) p (fun _ => q)); [apply Hp|intros _; exact Hq|intros _; exact Ha|intros _ x H; exact H].
    - intros s Hc. destruct Hp as (_ & _ & Hra & _). destruct Hq as (_ & _ & Hrb & _).
      assert (Hc1 : clear_of Fa s) by (destruct s; cbn in *; auto). specialize (Hra s Hc1). destruct Na; cbn [andb]; [|apply bind_fails; exact Hra]. destruct Hra as [x Hx].
      assert (Hc2 : clear_of Fb s) by (destruct s; cbn in *; auto). specialize (Hrb s Hc2). destruct Nb.
      + destruct Hrb as [y Hy]. rewrite Hx, bind_id_data, Hy. cbn. eauto.
      + destruct (map_fails (pair x) Hrb) as [(b & e & H)|(n & H)]; [left; exists b, e|right; exists n]; rewrite Hx, bind_id_data; exact H.
    - apply bind_answers; [apply Hp|intros _; apply Hq].
  Qed.

  Lemma law_bind : forall A B E (Wa : notation_ I A) (Wb : A -> notation_ I B) Nb Fa Fb Xa Xb (p : parser I A E) (q : A -> parser I B E),
    law Wa false Fa Xa p -> (forall v, law (Wb v) (Nb v) (Fb v) (Xb v) (q v)) -> (forall v, apart Xa (Fb v)) ->
    law (fun v t => exists ta tb, t = ta ++ tb /\ Wa (fst v) ta /\ Wb (fst v) (snd v) tb) false Fa (fun x => exists v, Xb v x \/ (Nb v = true /\ Xa x))
      (fun i => bind (fun e => e) (p i) (fun i x => map (pair x) (q x i))).
  Proof.
    intros A B E Wa Wb Nb Fa Fb Xa Xb p q Hp Hq Ha. split; [|split; [|split]].
    - intros [x y] t (ta & tb & -> & Hwa & Hwb). cbn [fst snd] in *. destruct Hp as (Hsa & _). specialize (Hsa _ _ Hwa). destruct ta; [discriminate|exact Hsa].
    - apply bind_back with (Nb := Nb) (Fb := Fb) (Xa := Xa) (Xb := Xb); [apply Hp|exact Hq|exact Ha|]. intros v x H. exists v. exact H.
    - intros s Hc. destruct Hp as (_ & _ & Hra & _). apply bind_fails. exact (Hra s Hc).
    - apply bind_answers; [apply Hp|intros v; apply Hq].
  Qed.

  Lemma or_fails : forall A E (p q : parser I A E) s, fails_on p (mkInput true s) -> or_ p q (mkInput true s) = q (mkInput true s).
  Proof. intros A E p q s [(b & e & H)|(n & H)]; unfold or_; rewrite H; reflexivity. Qed.

  Lemma law_alt : forall A B E (Wa : notation_ I A) (Wb : notation_ I B) Nb Fa Fb Xa Xb (p : parser I A E) (q : parser I B E),
    law Wa false Fa Xa p -> law Wb Nb Fb Xb q -> apart Fa Fb ->
    law (fun v t => match v with inl x => Wa x t | inr y => Wb y t end) Nb (fun x => Fa x \/ Fb x) (fun x => Xa x \/ Xb x \/ (Nb = true /\ Fa x))
      (or_ (fun i => map inl (p i)) (fun i => map inr (q i))).
  Proof.
    intros A B E Wa Wb Nb Fa Fb Xa Xb p q (Hsa & Hba & Hra & Haa) (Hsb & Hbb & Hrb & Hab) Ha. split; [|split; [|split]].
    - intros [x|y] t Hw; [specialize (Hsa _ _ Hw)|specialize (Hsb _ _ Hw)]; destruct t; auto. discriminate.
    - intros [x|y] t rest Hw Hc.
      + unfold or_. rewrite (Hba _ _ _ Hw) by (destruct rest; cbn in *; auto). reflexivity.
      + rewrite or_fails.
        * rewrite (Hbb _ _ _ Hw) by (destruct rest; cbn in *; auto). reflexivity.
        * apply map_fails. apply (Hra (t ++ rest)). specialize (Hsb _ _ Hw). destruct t as [|z t]; cbn [app]; [|cbn; intros H; exact (Ha z H Hsb)]. destruct rest; cbn in *; tauto.
    - intros s Hc. assert (Hc1 : clear_of Fa s) by (destruct s; cbn in *; auto). assert (Hc2 : clear_of Fb s) by (destruct s; cbn in *; auto).
      pose proof (map_fails (@inl A B) (Hra s Hc1)) as Hf. specialize (Hrb s Hc2). destruct Nb.
      + destruct Hrb as [y Hy]. exists (inr y). rewrite or_fails by exact Hf. rewrite Hy. reflexivity.
      + apply (map_fails (@inr A B)) in Hrb. destruct Hrb as [(b & e & H)|(n & H)]; [left; exists b, e|right; exists n]; rewrite or_fails by exact Hf; exact H.
    - intros i. unfold or_. specialize (Haa i). pose proof (map_answers (@inr A B) Hab i) as Hi. destruct (p i); cbn [map]; try tauto; [split; discriminate|].
      destruct (last i); [exact Hi|split; discriminate].
  Qed.

  Lemma law_option : forall A E (W : notation_ I A) F X (p : parser I A E), law W false F X p ->
    law (fun v t => match v with Some x => W x t | None => t = [] end) true F (fun x => X x \/ F x) (option_ (fun i => map Some (p i)) None).
  Proof.
    intros A E W F X p (Hs & Hb & Hr & Ha).
    assert (Hn : forall s, clear_of F s -> option_ (fun i => map Some (p i)) None (mkInput true s) = Data (mkInput true s) None).
    { intros s Hc. destruct (Hr s Hc) as [(b & e & H)|(n & H)]; unfold option_; rewrite H; reflexivity. }
    split; [|split; [|split]].
    - intros [x|] t Hw; [specialize (Hs _ _ Hw); destruct t; [reflexivity|exact Hs]|subst; reflexivity].
    - intros [x|] t rest Hw Hc.
      + unfold option_. rewrite (Hb _ _ _ Hw) by (destruct rest; cbn in *; auto). reflexivity.
      + subst t. apply Hn. destruct rest; cbn in *; auto.
    - intros s Hc. exists None. auto.
    - intros i. unfold option_. specialize (Ha i). destruct (p i); cbn; try tauto; try (split; discriminate). destruct (last i); split; discriminate.
  Qed.

  (** ** Repetition *)
  Lemma each_starts : forall A (W : notation_ I A) F, starts W false F -> forall vs t, each_written W vs t -> match t with [] => vs = [] | x :: _ => F x end.
  Proof.
    intros A W F Hs vs t H. inversion H as [|v u vs' ts Hw _]; subst; [reflexivity|]. specialize (Hs _ _ Hw). destruct u; [discriminate|exact Hs].
  Qed.

  Lemma each_iterates : forall St A E (W : notation_ I A) F X (p : sparser St I A E), starts W false F -> (forall x, reads_back W X (fun i => fst (p x i))) -> apart X F ->
    forall vs t, each_written W vs t -> forall rest x, (vs <> [] -> clear_of X rest) -> exists y, iterates p x (mkInput true (t ++ rest)) vs y (mkInput true rest).
  Proof.
    intros St A E W F X p Hs Hb Ha vs t H. induction H as [|v u vs ts Hw H IH]; intros rest x Hc.
    - exists x. constructor.
    - assert (Hu : fst (p x (mkInput true ((u ++ ts) ++ rest))) = Data (mkInput true (ts ++ rest)) v).
      { rewrite <- app_assoc. apply (Hb x); [assumption|]. pose proof (each_starts Hs H) as Hh. destruct ts as [|z ts]; cbn [app]; [apply Hc; discriminate|]. cbn. intros Hx. exact (Ha z Hx Hh). }
      destruct (p x (mkInput true ((u ++ ts) ++ rest))) as [q x1] eqn:Ep. cbn [fst] in Hu. subst q.
      destruct (IH rest x1) as [y Hy]; [intros _; apply Hc; discriminate|]. exists y. econstructor; eassumption.
  Qed.

  Lemma only_consuming : forall St A E (W : notation_ I A) F (p : sparser St I A E), starts W false F -> (forall x, reads_only W (fun i => fst (p x i))) -> consuming p.
  Proof.
    intros St A E W F p Hs Ho x [l s] j u x1 H. apply (f_equal fst) in H. cbn [fst] in H. destruct (Ho _ _ _ _ _ H) as (_ & t & Hw & ->). specialize (Hs _ _ Hw). cbn [buf].
    destruct t; [discriminate|]. rewrite app_length. cbn. lia.
  Qed.
  Lemma answers_returns : forall St A E (p : sparser St I A E), (forall x, answers_all (fun i => fst (p x i))) -> returns p.
  Proof. intros St A E p H x i x1 Hp. destruct (H x i) as [_ Hn]. apply Hn. rewrite Hp. reflexivity. Qed.

  Lemma bmany_is : forall St A E (W : notation_ I A) F (p : sparser St I A E), starts W false F -> (forall x, reads_only W (fun i => fst (p x i))) ->
    (forall x, answers_all (fun i => fst (p x i))) -> forall r, nonempty r -> forall fuel x i res, length (buf i) + 2 <= fuel ->
    many_outcome r p x i res -> bmany fuel (vec_collector A) r x p i = res.
  Proof.
    intros St A E W F p Hs Ho Ha r Hr fuel x i res Hf Hm. pose proof (only_consuming p Hs Ho) as Hc. pose proof (answers_returns p Ha) as Hn.
    assert (Hz : bmany fuel (vec_collector A) r x p i <> NoFuel) by (apply bmany_terminates; assumption).
    eapply many_outcome_det; [|eassumption]. eapply bmany_sound; eauto.
  Qed.

  Lemma law_many : forall St A E (W : notation_ I A) F X (p : sparser St I A E), (forall x, reads_only W (fun i => fst (p x i))) -> (forall x, law W false F X (fun i => fst (p x i))) -> apart X F ->
    forall r, nonempty r -> forall fuel x, (forall i, length (buf i) + 2 <= fuel i) ->
    law (fun vs t => in_range r (length vs) /\ each_written W vs t) (allows_none r) F (fun x => X x \/ (elastic r /\ F x)) (fun i => bmany (fuel i) (vec_collector A) r x p i).
  Proof.
    intros St A E W F X p Ho Hl Ha r Hr fuel x Hf. assert (Hs : starts W false F) by apply (Hl x). assert (Hb : forall x, reads_back W X (fun i => fst (p x i))) by (intros; apply Hl).
    assert (Hx : forall x, answers_all (fun i => fst (p x i))) by (intros; apply Hl).
    assert (Hg : forall y s, clear_of F s -> gives_up p y (mkInput true s)).
    { intros y s Hc. destruct (Hl y) as (_ & _ & Hrf & _). destruct (Hrf s Hc) as [(b & e & H)|(n & H)]; [left; eauto|right]. exists n. auto. }
    split; [|split; [|split]].
    - intros vs t [Hin Hw]. pose proof (each_starts Hs Hw) as H. destruct t; [|exact H]. subst vs. destruct r; cbn in *; auto; apply Nat.eqb_eq; lia.
    - intros vs t rest [Hin Hw] Hc. destruct (each_iterates p Hs Hb Ha Hw rest x) as [y Hy]; [intros _; destruct rest; cbn in *; auto|].
      apply (bmany_is Hs Ho Hx Hr); [apply Hf|]. econstructor; [exact Hy|exact Hin|].
      destruct r as [a b|a| |b|n]; [right; apply Hg; destruct rest; cbn in *; tauto..|]. left. intros (k & Hk & Hk2). cbn in *. lia.
    - intros s Hc. assert (Hd : {in_range r 0} + {~ in_range r 0}) by (destruct r; cbn; [destruct (Nat.eq_dec a 0); destruct b; [right|left|right|right]; lia|destruct a; [left|right]; lia|left; exact Logic.I|destruct b; [right|left]; lia|destruct n; [left|right]; lia]).
      destruct Hd as [Hd|Hd].
      + replace (allows_none r) with true by (destruct r; cbn in *; auto; symmetry; apply Nat.eqb_eq; lia).
        exists []. apply (bmany_is Hs Ho Hx Hr); [apply Hf|]. econstructor; [constructor|exact Hd|right; apply Hg; exact Hc].
      + assert (Hm : may_grow r 0) by (destruct Hr as [k Hk]; exists k; split; [destruct k; [contradiction|lia]|exact Hk]).
        replace (allows_none r) with false
          by (destruct r; cbn in *; auto; try tauto; symmetry; try (apply Nat.eqb_neq; destruct Hr as [k Hk]; cbn in Hk; lia); exfalso; destruct Hr as [k Hk]; cbn in Hk; lia).
        destruct (Hg x s Hc) as [(b & e & H)|(n & H & _)].
        * left. exists b, e. apply (bmany_is Hs Ho Hx Hr); [apply Hf|]. eapply mo_error; [constructor|exact Hd|exact Hm|exact H].
        * right. exists n. apply (bmany_is Hs Ho Hx Hr); [apply Hf|]. eapply mo_incomplete; [constructor|exact Hm|exact H|left; exact Hd].
    - intros i. assert (Hz : bmany (fuel i) (vec_collector A) r x p i <> NoFuel) by (apply bmany_terminates; auto; [apply (answers_returns p Hx)|apply (only_consuming p Hs Ho)]).
      split; [|exact Hz]. intros Hp. pose proof (@bmany_sound _ _ _ _ p _ _ _ _ _ Hr Hp ltac:(discriminate)) as Hm. inversion Hm as [| | |us y j Hi Hg2 Hpp]. destruct (Hx y j) as [Hq _]. exact (Hq Hpp).
  Qed.

  Lemma law_skip : forall A E (W : notation_ I A) F X (p : parser I A E), reads_only W p -> law W false F X p -> apart X F ->
    forall r, nonempty r -> skip_agrees r (pure p) -> forall fuel, (forall i, length (buf i) + 2 <= fuel i) ->
    law (fun (_ : unit) t => exists vs, in_range r (length vs) /\ each_written W vs t) (allows_none r) F (fun x => X x \/ (elastic r /\ F x))
      (fun i => bskip_many (fuel i) r tt (pure p) i).
  Proof.
    intros A E W F X p Ho Hl Ha r Hr Hk fuel Hf. pose proof (@law_many unit A E W F X (pure p) (fun _ => Ho) (fun _ => Hl) Ha r Hr fuel tt Hf) as Hm.
    assert (He : forall i, bskip_many (fuel i) r tt (pure p) i = map (fun _ => tt) (bmany (fuel i) (vec_collector A) r tt (pure p) i)).
    { intros i. apply (@skip_many_lockstep unit I A E (pure p) r Hk). destruct Hm as (_ & _ & _ & H). apply H. }
    apply (law_map (fun _ => tt)) in Hm. destruct Hm as (H1 & H2 & H3 & H4). split; [|split; [|split]].
    - intros u t (vs & Hw). apply (H1 tt). eauto.
    - intros u t rest (vs & Hw) Hc. destruct u. rewrite He. apply H2; eauto.
    - intros s Hc. specialize (H3 s Hc). destruct (allows_none r); [destruct H3 as [u H3]; exists u; rewrite He; exact H3|].
      destruct H3 as [(b & e & H)|(n & H)]; [left; exists b, e|right; exists n]; rewrite He; exact H.
    - intros i. rewrite He. apply H4.
  Qed.

  Lemma law_after : forall A B E (Wa : notation_ I A) (Wb : notation_ I B) Nb Fa Fb Xa Xb (p : parser I A E) (q : parser I B E),
    law Wa false Fa Xa p -> law Wb Nb Fb Xb q -> apart Xb Fa -> forall x,
    law (after Wb Wa) false (fun x => Fb x \/ (Nb = true /\ Fa x)) Xa (fun i => fst (sep_then (fun e : E => e) (pure p) (pure q) x i)).
  Proof.
    intros A B E Wa Wb Nb Fa Fb Xa Xb p q (Hsa & Hba & Hra & Haa) (Hsb & Hbb & Hrb & Hab) Ha x.
    assert (Hd : forall i, fst (sep_then (fun e : E => e) (pure p) (pure q) x i) = match q i with Data j _ => p j | Error b e => Error b e | Incomplete n => Incomplete n | Panic => Panic | NoFuel => NoFuel end)
      by (intros i; unfold sep_then, pure; destruct (q i); reflexivity).
    split; [|split; [|split]].
    - intros v t (y & s & u & Hs & Hu & ->). specialize (Hsa _ _ Hu). specialize (Hsb _ _ Hs). destruct s; [|left; exact Hsb]. cbn. destruct u; [exact Hsa|right; auto].
    - intros v t rest (y & s & u & Hs & Hu & ->) Hc. rewrite Hd, <- app_assoc, (Hbb _ _ _ Hs).
      + apply Hba; assumption.
      + specialize (Hsa _ _ Hu). destruct u as [|z u]; [discriminate|]. cbn. intros H. exact (Ha z H Hsa).
    - intros s Hc. assert (Hc1 : clear_of Fb s) by (destruct s; cbn in *; auto). specialize (Hrb s Hc1). destruct Nb.
      + destruct Hrb as [y Hy]. assert (Hc2 : clear_of Fa s) by (destruct s; cbn in *; auto). destruct (Hra s Hc2) as [(b & e & H)|(n & H)]; [left; exists b, e|right; exists n]; rewrite Hd, Hy; exact H.
      + destruct Hrb as [(b & e & H)|(n & H)]; [left; exists b, e|right; exists n]; rewrite Hd, H; reflexivity.
    - intros i. rewrite Hd. specialize (Hab i). destruct (q i); try (split; discriminate); try tauto. apply Haa.
  Qed.

  Lemma law_sep1 : forall A B E (Wa : notation_ I A) (Wb : notation_ I B) Nb Fa Fb Xa Xb (p : parser I A E) (q : parser I B E), reads_only Wa p -> reads_only Wb q ->
    law Wa false Fa Xa p -> law Wb Nb Fb Xb q -> apart Xa Fb -> apart Xb Fa -> (Nb = true -> apart Xa Fa) -> forall fuel, (forall i, length (buf i) <= fuel i) ->
    law (sep_written Wa Wb) false Fa (fun x => Xa x \/ Fb x \/ (Nb = true /\ Fa x)) (fun i => sep_by1 (S (S (fuel i))) (vec_collector A) (fun e => e) tt tt (pure p) (pure q) i).
  Proof.
    intros A B E Wa Wb Nb Fa Fb Xa Xb p q Hop Hoq Hp Hq Ha1 Ha2 Ha3 fuel Hf.
    pose proof (law_after Hp Hq Ha2) as Hl. pose proof (only_then Hop Hoq) as Ho.
    assert (Ha : apart Xa (fun x => Fb x \/ (Nb = true /\ Fa x))) by (intros z Hz [H|[H H2]]; [exact (Ha1 z Hz H)|exact (Ha3 H z Hz H2)]).
    assert (Hr : nonempty RFull) by (exists 0; exact Logic.I).
    assert (Hm : forall n, law (fun vs t => in_range RFull (length vs) /\ each_written (after Wb Wa) vs t) true (fun x => Fb x \/ (Nb = true /\ Fa x))
              (fun x => Xa x \/ (True /\ (Fb x \/ (Nb = true /\ Fa x)))) (fun i => bmany (Nat.max n (length (buf i) + 2)) (vec_collector A) RFull (tt, tt) (sep_then (fun e : E => e) (pure p) (pure q)) i)).
    { intros n. apply (@law_many (unit * unit) A E (after Wb Wa) _ Xa (sep_then (fun e : E => e) (pure p) (pure q)) Ho Hl Ha RFull Hr). intros i. lia. }
    destruct Hp as (Hsa & Hba & Hra & Haa).
    assert (He : forall i, sep_by1 (S (S (fuel i))) (vec_collector A) (fun e => e) tt tt (pure p) (pure q) i =
      match p i with
      | Data j u => match bmany (Nat.max (S (fuel i)) (length (buf j) + 2)) (vec_collector A) RFull (tt, tt) (sep_then (fun e : E => e) (pure p) (pure q)) j with
                    | Data k us => Data k (u :: us) | Error b e => Error b e | Incomplete n => Incomplete n | Panic => Panic | NoFuel => NoFuel end
      | Error b e => Error b e | Incomplete n => Incomplete n | Panic => Panic | NoFuel => NoFuel
      end).
    { intros [l s]. rewrite sep_by1_char. unfold first_then, pure at 1. destruct (p (mkInput l s)) as [j u|b e|n| |] eqn:Ep; try reflexivity.
      destruct (Hop _ _ _ _ Ep) as (_ & t & Hw & Hs). specialize (Hsa _ _ Hw). specialize (Hf (mkInput l s)). cbn [buf] in Hf. subst s. rewrite app_length in Hf.
      replace (Nat.max (S (fuel (mkInput l (t ++ buf j)))) (length (buf j) + 2)) with (S (fuel (mkInput l (t ++ buf j)))); [reflexivity|].
      destruct t; [discriminate|]. cbn [length] in Hf. lia. }
    split; [|split; [|split]].
    - intros vs t (v & u & us & w & -> & Hu & _ & ->). specialize (Hsa _ _ Hu). destruct u; [discriminate|exact Hsa].
    - intros vs t rest (v & u & us & w & -> & Hu & Hw & ->) Hc. rewrite He, <- app_assoc, (Hba _ _ _ Hu).
      + destruct (Hm (S (fuel (mkInput true (u ++ w ++ rest))))) as (_ & Hb & _). rewrite (Hb us w rest); [reflexivity| |].
        * split; [exact Logic.I|exact Hw].
        * destruct rest; cbn in *; tauto.
      + assert (Hs2 : starts (after Wb Wa) false (fun x => Fb x \/ (Nb = true /\ Fa x))) by apply (Hl (tt, tt)). pose proof (each_starts Hs2 Hw) as H.
        destruct w as [|z w]; cbn [app]; [destruct rest; cbn in *; auto|]. cbn. intros Hx. exact (Ha z Hx H).
    - intros s Hc. destruct (Hra s Hc) as [(b & e & H)|(n & H)]; [left; exists b, e|right; exists n]; rewrite He, H; reflexivity.
    - intros i. rewrite He. specialize (Haa i). destruct (p i) as [j u|b e|n| |]; try (split; discriminate); try tauto.
      destruct (Hm (S (fuel i))) as (_ & _ & _ & H). specialize (H j). cbv beta in H. destruct (bmany _ _ _ _ _ j); try (split; discriminate); tauto.
  Qed.

  Lemma law_sep : forall A B E (Wa : notation_ I A) (Wb : notation_ I B) Nb Fa Fb Xa Xb (p : parser I A E) (q : parser I B E), reads_only Wa p -> reads_only Wb q ->
    law Wa false Fa Xa p -> law Wb Nb Fb Xb q -> apart Xa Fb -> apart Xb Fa -> (Nb = true -> apart Xa Fa) -> forall fuel, (forall i, length (buf i) <= fuel i) ->
    law (fun vs t => (vs = [] /\ t = []) \/ sep_written Wa Wb vs t) true Fa (fun x => Xa x \/ Fa x \/ Fb x)
      (fun i => sep_by (S (S (fuel i))) (vec_collector A) (fun e => e) tt tt (pure p) (pure q) i).
  Proof.
    intros A B E Wa Wb Nb Fa Fb Xa Xb p q Hop Hoq Hp Hq Ha1 Ha2 Ha3 fuel Hf.
    destruct (law_sep1 Hop Hoq Hp Hq Ha1 Ha2 Ha3 fuel Hf) as (Hs & Hb & Hr & Ha).
    assert (He : forall i, sep_by (S (S (fuel i))) (vec_collector A) (fun e => e) tt tt (pure p) (pure q) i =
      match sep_by1 (S (S (fuel i))) (vec_collector A) (fun e => e) tt tt (pure p) (pure q) i with
      | Data b d => Data b d | Error _ _ => Data i [] | Incomplete n => if last i then Data i [] else Incomplete n | Panic => Panic | NoFuel => NoFuel end).
    { intros i. rewrite sep_by_option; [reflexivity| |]; intros x [l1 s1] k u x1 H; injection H as H _; [destruct (Hop _ _ _ _ H) as (<- & _)|destruct (Hoq _ _ _ _ H) as (<- & _)]; reflexivity. }
    assert (Hn : forall s, clear_of Fa s -> sep_by (S (S (fuel (mkInput true s)))) (vec_collector A) (fun e => e) tt tt (pure p) (pure q) (mkInput true s) = Data (mkInput true s) []).
    { intros s Hc. rewrite He. destruct (Hr s Hc) as [(b & e & H)|(n & H)]; rewrite H; reflexivity. }
    split; [|split; [|split]].
    - intros vs t [[-> ->]|H]; [reflexivity|]. specialize (Hs _ _ H). destruct t; [reflexivity|exact Hs].
    - intros vs t rest [[-> ->]|H] Hc.
      + apply Hn. destruct rest; cbn in *; auto.
      + rewrite He. rewrite (Hb _ _ rest H) by (destruct rest; cbn in *; tauto). reflexivity.
    - intros s Hc. exists []. apply Hn. exact Hc.
    - intros i. rewrite He. specialize (Ha i). cbv beta in Ha. destruct (sep_by1 _ _ _ _ _ _ _ i); try (split; discriminate); try tauto. destruct (last i); split; discriminate.
  Qed.

  Lemma each_till : forall A B E (Wa : notation_ I A) Fa Fe Xa (p : parser I A E) (q : parser I B E), starts Wa false Fa -> reads_back Wa Xa p -> refuses false Fe q -> apart Xa Fa -> apart Fa Fe ->
    forall vs t, each_written Wa vs t -> forall rest n, (vs <> [] -> clear_of Xa rest) -> iterates_till RFull (pure p) q n tt (mkInput true (t ++ rest)) vs tt (mkInput true rest).
  Proof.
    intros A B E Wa Fa Fe Xa p q Hs Hb Hr Ha1 Ha2 vs t H. induction H as [|v u vs ts Hw H IH]; intros rest n Hc.
    - constructor.
    - rewrite <- app_assoc. assert (Hu : p (mkInput true (u ++ ts ++ rest)) = Data (mkInput true (ts ++ rest)) v).
      { apply Hb; [assumption|]. pose proof (each_starts Hs H) as Hh. destruct ts as [|z ts]; cbn [app]; [apply Hc; discriminate|]. cbn. intros Hx. exact (Ha1 z Hx Hh). }
      econstructor.
      + intros _. apply (Hr (u ++ ts ++ rest)). specialize (Hs _ _ Hw). destruct u as [|z u]; [discriminate|]. cbn. intros Hx. exact (Ha2 z Hs Hx).
      + unfold pure. rewrite Hu. reflexivity.
      + apply IH. intros _. apply Hc. discriminate.
  Qed.

  Lemma law_till : forall A B E (Wa : notation_ I A) (We : notation_ I B) Fa Fe Xa Xe (p : parser I A E) (q : parser I B E), reads_only Wa p ->
    law Wa false Fa Xa p -> law We false Fe Xe q -> apart Xa Fa -> apart Xa Fe -> apart Fa Fe -> forall fuel, (forall i, length (buf i) + 2 <= fuel i) ->
    law (fun vs t => exists u v w, t = u ++ w /\ each_written Wa vs u /\ We v w) false (fun x => Fa x \/ Fe x) Xe
      (fun i => many_till (fuel i) (vec_collector A) tt tt (pure p) (pure q) i).
  Proof.
    intros A B E Wa We Fa Fe Xa Xe p q Ho (Hsa & Hba & Hra & Haa) (Hse & Hbe & Hre & Hae) Ha1 Ha2 Ha3 fuel Hf.
    assert (Hr : nonempty RFull) by (exists 0; exact Logic.I). pose proof (@only_consuming unit A E Wa Fa (pure p) Hsa (fun _ => Ho)) as Hcp.
    pose proof (@answers_returns unit A E (pure p) (fun _ => Haa)) as Hrp. pose proof (@answers_returns unit B E (pure q) (fun _ => Hae)) as Hrq.
    assert (Hz : forall i, many_till (fuel i) (vec_collector A) tt tt (pure p) (pure q) i <> NoFuel) by (intros i; apply bmany_till_terminates; auto).
    destruct (@bmany_till_char unit I A B E E (pure p) q RFull Hr) as [Hch _].
    assert (Hm : forall i res, till_outcome RFull (pure p) q tt i res -> many_till (fuel i) (vec_collector A) tt tt (pure p) (pure q) i = res).
    { intros i res H. destruct (Hch (fuel i) tt i _ eq_refl (Hz i)) as (res' & Ho2 & Hq). cbn [till_quirk] in Hq. unfold many_till. rewrite Hq. eapply till_outcome_det; eassumption. }
    assert (Hg : forall k, may_grow RFull k) by (intros k; exists (S k); split; [lia|exact Logic.I]).
    split; [|split; [|split]].
    - intros vs t (u & v & w & -> & Hu & Hw). pose proof (each_starts Hsa Hu) as H. destruct u; cbn [app]; [|left; exact H]. specialize (Hse _ _ Hw). destruct w; [discriminate|right; exact Hse].
    - intros vs t rest (u & v & w & -> & Hu & Hw) Hc. rewrite <- app_assoc. apply Hm. pose proof (Hse _ _ Hw) as Hh. eapply to_data with (j := mkInput true (w ++ rest)) (v := v).
      + apply (each_till Hsa Hba Hre Ha1 Ha3 Hu). intros _. destruct w as [|z w]; [discriminate|]. cbn. intros Hx. exact (Ha2 z Hx Hh).
      + exact Logic.I.
      + apply Hbe; assumption.
    - intros s Hc. assert (Hc1 : clear_of Fa s) by (destruct s; cbn in *; auto). assert (Hc2 : clear_of Fe s) by (destruct s; cbn in *; auto).
      destruct (Hra s Hc1) as [(b & e & H)|(n & H)]; [left; exists b, e|right; exists n]; apply Hm.
      + eapply to_error; [constructor|intros _; exact (Hre s Hc2)|apply Hg|exact H].
      + eapply to_incomplete; [constructor|intros _; exact (Hre s Hc2)|apply Hg|exact H].
    - intros i. split; [|apply Hz]. intros Hp. destruct (Hch (fuel i) tt i _ Hp ltac:(discriminate)) as (res' & Ho2 & Hq). cbn [till_quirk] in Hq. subst res'.
      inversion Ho2 as [| | | |us y j _ _ _ Hpp|us y j _ _ Hpp]; [destruct (Haa j) as [Hn _]; exact (Hn Hpp)|destruct (Hae j) as [Hn _]; exact (Hn Hpp)].
  Qed.

  Lemma law_slice : forall A E (W : notation_ I A) N F X (p : parser I A E), reads_only W p -> law W N F X p ->
    law (fun v t => fst v = t /\ W (snd v) t) N F X (matched_by p).
  Proof.
    intros A E W N F X p Ho (Hs & Hb & Hr & Ha). split; [|split; [|split]].
    - intros [t0 v] t [_ H]. exact (Hs _ _ H).
    - intros [t0 v] t rest [H1 H] Hc. cbn [fst snd] in *. subst t0. unfold matched_by. rewrite (Hb _ _ _ H Hc). cbn [buf]. rewrite app_length.
      destruct (Nat.ltb_spec (length t + length rest) (length rest)); [lia|]. rewrite Nat.add_sub, firstn_app, firstn_all, Nat.sub_diag. cbn [firstn]. rewrite app_nil_r. reflexivity.
    - intros s Hc. specialize (Hr s Hc). destruct N.
      + destruct Hr as [v Hv]. exists (firstn (length s - length s) s, v). unfold matched_by. rewrite Hv. cbn [buf]. rewrite Nat.ltb_irrefl. reflexivity.
      + destruct Hr as [(b & e & H)|(n & H)]; [left; exists b, e|right; exists n]; unfold matched_by; rewrite H; reflexivity.
    - intros [l s]. unfold matched_by. specialize (Ha (mkInput l s)). destruct (p (mkInput l s)) as [j v|b e|n| |] eqn:Ep; try (split; discriminate); try tauto.
      destruct (Ho _ _ _ _ Ep) as (_ & t & _ & ->). cbn [buf]. rewrite app_length. destruct (Nat.ltb_spec (length t + length (buf j)) (length (buf j))); [lia|]. split; discriminate.
  Qed.
End Laws.

(** * The readers of formats *)
Section Main.
  Context {I : Type}.
  Variable v : bool.
  Variable eqb : I -> I -> bool.
  Variable xt : nat.

  Lemma unambiguous_grounded : forall T (f : fmt I T), unambiguous eqb f -> grounded f.
  Proof.
    induction f as [w|c|c|c|n|T0 W N F X p|A B g f IH|A B a IHa b IHb|A B a IHa b IHb|A B a IHa b IHb|A a IHa|r A a IHa|r A a IHa|A B a IHa s IHs|A B a IHa s IHs|A B a IHa e IHe|A a IHa];
      cbn [grounded unambiguous]; intros Hg; try tauto.
    destruct Hg as (Ha & _ & Hb). split; [auto|]. intros x. apply IHb. apply Hb.
  Qed.

  Lemma law_lit : forall w, law (fun (_ : unit) t => same_items eqb w t) (match w with [] => true | _ => false end) (fun x => match w with [] => False | y :: _ => eqb y x = true end)
    (fun _ => False) (fun i => map (fun _ => tt) (string v eqb w i)).
  Proof.
    intros w. split; [|split; [|split]].
    - intros u t H. inversion H; subst; cbn; auto.
    - intros [] t rest H _. rewrite string_match by exact H. reflexivity.
    - intros s Hc. destruct w as [|y w].
      + exists tt. change s with ([] ++ s) at 1. rewrite string_match by constructor. reflexivity.
      + apply map_fails. destruct (string_total eqb (y :: w) s) as [Hl|[(x & z & -> & Hs)|(x & z & n & -> & Hl & Hs)]].
        * right. exists (length (y :: w) - length s). apply string_short; lia.
        * exfalso. inversion Hs; subst. cbn in Hc. auto.
        * left. destruct v eqn:Hv; eexists; eexists; rewrite (@string_mismatch_spec I _ eqb (y :: w) true x z n) by assumption; reflexivity.
    - intros [l s]. destruct (string_total eqb w s) as [Hl|[(x & z & -> & Hs)|(x & z & n & -> & Hl & Hs)]].
      + rewrite (@string_short I v eqb w l s (length w - length s)) by lia. split; discriminate.
      + rewrite string_match by assumption. split; discriminate.
      + rewrite (@string_mismatch_spec I v eqb w l x z n) by assumption. destruct v; split; discriminate.
  Qed.

  Lemma law_item : forall c : I -> bool, law (fun x t => t = [x] /\ c x = true) false (fun x => c x = true) (fun _ => False) (satisfy v c).
  Proof.
    intros c. split; [|split; [|split]].
    - intros x t [-> H]. exact H.
    - intros x t rest [-> H] _. unfold satisfy. cbn. rewrite H. reflexivity.
    - intros [|x s] Hc; cbn in Hc.
      + right. exists 1. reflexivity.
      + left. unfold satisfy. cbn. destruct (c x); [exfalso; auto|]. cbn. destruct v; eexists; eexists; reflexivity.
    - intros [l [|x s]]; unfold satisfy; cbn; [split; discriminate|]. destruct (c x); cbn; [split; discriminate|]. destruct v; split; discriminate.
  Qed.

  Lemma position_app : forall (c : I -> bool) x y, Forall (fun a => c a = true) x -> clear_of (fun a => c a = true) y ->
    position (fun a => Bool.eqb (c a) false) (x ++ y) = match y with [] => None | _ => Some (length x) end.
  Proof.
    intros c x y H Hy. induction H as [|a x Ha H IH]; cbn.
    - destruct y as [|b y]; cbn in *; [reflexivity|]. destruct (c b); [exfalso; auto|reflexivity].
    - rewrite Ha. cbn. rewrite IH. destruct y; reflexivity.
  Qed.

  Lemma span_back : forall (c : I -> bool) x y, Forall (fun a => c a = true) x -> clear_of (fun a => c a = true) y ->
    take_while c (mkInput true (x ++ y)) = Data (mkInput true y) x.
  Proof.
    intros c x y H Hy. unfold take_while. cbn [buf last]. rewrite (@position_app c _ _ H Hy). destruct y as [|b y].
    - rewrite app_nil_r. reflexivity.
    - unfold ret, replace. cbn [last]. rewrite firstn_app, firstn_all, Nat.sub_diag, skipn_app, skipn_all, Nat.sub_diag. cbn. rewrite app_nil_r. reflexivity.
  Qed.

  Lemma law_span : forall c : I -> bool, law (fun w t => t = w /\ Forall (fun x => c x = true) w) true (fun x => c x = true) (fun x => c x = true) (take_while c).
  Proof.
    intros c. split; [|split; [|split]].
    - intros w t [-> H]. inversion H; auto.
    - intros w t rest [-> H] Hc. apply span_back; assumption.
    - intros s Hc. exists []. apply (@span_back c [] s); [constructor|exact Hc].
    - intros [l s]. unfold take_while. cbn [buf last]. destruct (position _ s); [split; discriminate|]. destruct l; split; discriminate.
  Qed.

  Lemma law_span1 : forall c : I -> bool, law (fun w t => t = w /\ Forall (fun x => c x = true) w /\ w <> []) false (fun x => c x = true) (fun x => c x = true) (take_while1 v c).
  Proof.
    intros c. split; [|split; [|split]].
    - intros w t (-> & H & Hn). inversion H; subst; [contradiction|assumption].
    - intros w t rest (-> & H & Hn) Hc. unfold take_while1. cbn [buf last]. rewrite (@position_app c _ _ H Hc). destruct w as [|a w]; [contradiction|]. destruct rest as [|b rest].
      + rewrite app_nil_r. reflexivity.
      + cbn [length]. unfold ret, replace. cbn [last]. change (S (length w)) with (length (a :: w)). rewrite firstn_app, firstn_all, Nat.sub_diag, skipn_app, skipn_all, Nat.sub_diag.
        cbn. rewrite app_nil_r. reflexivity.
    - intros [|x s] Hc; cbn in Hc.
      + right. eexists. reflexivity.
      + left. unfold take_while1. cbn [buf last]. cbn [position]. destruct (c x); [exfalso; auto|]. cbn. destruct v; eexists; eexists; reflexivity.
    - intros [l s]. unfold take_while1. cbn [buf last]. destruct (position _ s) as [[|n]|]; cbn; try (split; discriminate); try (destruct v; split; discriminate).
      destruct s; cbn; destruct l; split; discriminate.
  Qed.

  Lemma law_take : forall n, law (fun w t => t = w /\ length w = n) (n =? 0) (fun _ : I => n <> 0) (fun _ => False) (take n).
  Proof.
    intros n. split; [|split; [|split]].
    - intros w t [-> <-]. destruct w; cbn; [reflexivity|discriminate].
    - intros w t rest [-> <-] _. unfold take. cbn [buf]. rewrite app_length. destruct (Nat.leb_spec (length w) (length w + length rest)); [|lia].
      unfold ret, replace. cbn [last]. rewrite firstn_app, firstn_all, Nat.sub_diag, skipn_app, skipn_all, Nat.sub_diag. cbn. rewrite app_nil_r. reflexivity.
    - intros s Hc. destruct n; cbn [Nat.eqb].
      + exists []. reflexivity.
      + destruct s as [|x s]; [|cbn in Hc; exfalso; apply Hc; discriminate]. right. eexists. reflexivity.
    - intros [l s]. unfold take. cbn [buf]. destruct (n <=? length s); split; discriminate.
  Qed.

  Lemma unambiguous_law : forall T (f : fmt I T), unambiguous eqb f -> law (written eqb f) (nul f) (begins eqb f) (prolongs eqb f) (reader v eqb xt f).
  Proof.
    induction f as [w|c|c|c|n|T0 W N F X p|A B g f IH|A B a IHa b IHb|A B a IHa b IHb|A B a IHa b IHb|A a IHa|r A a IHa|r A a IHa|A B a IHa s IHs|A B a IHa s IHs|A B a IHa e IHe|A a IHa];
      intros Hu; pose proof (unambiguous_grounded _ Hu) as Hg; cbn [unambiguous] in Hu; cbn [written nul begins prolongs reader].
    - apply law_lit.
    - apply law_item.
    - apply law_span.
    - apply law_span1.
    - apply law_take.
    - unfold law. tauto.
    - apply law_map. auto.
    - apply law_seq; tauto.
    - destruct Hu as (Ha & Hn & Hb). specialize (IHa Ha). rewrite Hn in *. apply (@law_bind I A B (error I) (written eqb a) (fun x => written eqb (b x)) (fun x => nul (b x)) (begins eqb a) (fun x => begins eqb (b x)) (prolongs eqb a)
        (fun x => prolongs eqb (b x)) (reader v eqb xt a) (fun x => reader v eqb xt (b x))); [exact IHa|intros x; apply IHb, Hb|intros x; apply Hb].
    - destruct Hu as (Ha & Hb & Hn & Hp). specialize (IHa Ha). rewrite Hn in *. cbn [orb]. apply law_alt; auto.
    - destruct Hu as (Ha & Hn). specialize (IHa Ha). rewrite Hn in *. apply law_option. exact IHa.
    - destruct Hu as (Ha & Hn & Hr & Hp). specialize (IHa Ha). rewrite Hn in *. cbn [grounded] in Hg.
      apply (@law_many I unit A (error I) (written eqb a) _ _ (pure (reader v eqb xt a)) (fun _ => grounded_only v eqb xt a (proj2 Hg)) (fun _ => IHa) Hp r Hr (@steps_for I xt) tt). intros i. unfold steps_for. lia.
    - destruct Hu as (Ha & Hn & Hr & Hp). specialize (IHa Ha). rewrite Hn in *. cbn [grounded] in Hg.
      apply (law_skip (grounded_only v eqb xt a (proj2 Hg)) IHa Hp Hr); [apply skip_fine; [exact Hr|apply grounded_honest, Hg]|]. intros i. unfold steps_for. lia.
    - destruct Hu as (Ha & Hs & Hn & H1 & H2 & H3). specialize (IHa Ha). specialize (IHs Hs). rewrite Hn in *. cbn [grounded] in Hg.
      pose proof (law_sep (grounded_only v eqb xt a (proj1 Hg)) (grounded_only v eqb xt s (proj2 Hg)) IHa IHs H1 H2 H3 (fun i => length (buf i) + xt) ltac:(intros; apply Nat.le_add_r)) as H.
      unfold law, reads_back, refuses, answers_all, fails_on in *. unfold steps_for.
      assert (He : forall n, n + 2 + xt = S (S (n + xt))) by (intros; lia). setoid_rewrite He. exact H.
    - destruct Hu as (Ha & Hs & Hn & H1 & H2 & H3). specialize (IHa Ha). specialize (IHs Hs). rewrite Hn in *. cbn [grounded] in Hg.
      pose proof (law_sep1 (grounded_only v eqb xt a (proj1 Hg)) (grounded_only v eqb xt s (proj2 Hg)) IHa IHs H1 H2 H3 (fun i => length (buf i) + xt) ltac:(intros; apply Nat.le_add_r)) as H.
      unfold law, reads_back, refuses, answers_all, fails_on in *. unfold steps_for.
      assert (He : forall n, n + 2 + xt = S (S (n + xt))) by (intros; lia). setoid_rewrite He. exact H.
    - destruct Hu as (Ha & He & Hn & Hm & H1 & H2 & H3). specialize (IHa Ha). specialize (IHe He). rewrite Hn, Hm in *. cbn [grounded] in Hg.
      apply (law_till (grounded_only v eqb xt a (proj1 Hg)) IHa IHe H1 H2 H3). intros i. unfold steps_for. lia.
    - apply law_slice; [apply grounded_only, Hg|auto].
  Qed.
End Main.
