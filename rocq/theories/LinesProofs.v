(** Proofs about files of lines (C76). *)
From Coq Require Import List Bool Arith Lia.
From Verif Require Import Base Parsers Combinators Buffer Stream SpecBase SpecBuffer SpecSafe SpecStream BaseProofs StableProofs SafeProofs BufferProofs StreamProofs SpecPeg Peg PegProofs PegTotal SpecBlame BlameProofs SpecLines.
Import ListNotations.

Set Implicit Arguments.

(** * Single calls on a slice *)

Lemma skipn_further : forall A (l : list A) n x z, skipn n l = x ++ z -> skipn (n + length x) l = z.
Proof.
  induction l as [|a l IH]; intros [|n] x z H; cbn in *; try (destruct x; [|discriminate]; cbn in *; subst; reflexivity).
  - destruct x as [|b x]; cbn in *; [assumption|]. inversion H; subst. rewrite skipn_app, skipn_all, Nat.sub_diag. reflexivity.
  - apply IH. assumption.
Qed.

Section Calls.
  Context {I T E : Type}.
  Variable p : parser I T E.

  Lemma call_data : forall pos data x z t, pos <= length data -> skipn pos data = x ++ z -> x <> [] -> p (mkInput true (x ++ z)) = Data (mkInput true z) t ->
    slice_parse p (mkSliceStream pos data) = Done (mkSliceStream (pos + length x) data, inl t) /\ pos + length x <= length data /\ skipn (pos + length x) data = z.
  Proof.
    intros pos data x z t Hl Eq Hx H. pose proof (f_equal (@length I) Eq) as El. rewrite skipn_length, app_length in El. assert (0 < length x) by (destruct x; [congruence|cbn; lia]).
    split; [|split; [lia|]].
    - unfold slice_parse, slice_is_empty, slice_len, usize_sub. cbn [ss_pos ss_slice]. destruct (Nat.leb_spec pos (length data)); [|lia]. cbn [run_bind].
      destruct (Nat.eqb_spec (length data - pos) 0); [lia|]. rewrite Eq, H. cbn [run_bind buf]. destruct (Nat.leb_spec (length z) (length data - pos)); [|lia]. cbn [run_bind].
      do 3 f_equal. lia.
    - apply skipn_further. assumption.
  Qed.

  Lemma call_error : forall pos data z b e, pos <= length data -> skipn pos data = z ++ b -> b <> [] -> p (mkInput true (z ++ b)) = Error b e ->
    slice_parse p (mkSliceStream pos data) = Done (mkSliceStream (pos + length z) data, inr (SParseError b e)) /\ pos + length z <= length data /\
    skipn (pos + length z) data = b.
  Proof.
    intros pos data z b e Hl Eq Hb H. pose proof (f_equal (@length I) Eq) as El. rewrite skipn_length, app_length in El. assert (0 < length b) by (destruct b; [congruence|cbn; lia]).
    split; [|split; [lia|]].
    - unfold slice_parse, slice_is_empty, slice_len, usize_sub. cbn [ss_pos ss_slice]. destruct (Nat.leb_spec pos (length data)); [|lia]. cbn [run_bind].
      destruct (Nat.eqb_spec (length data - pos) 0); [lia|]. rewrite Eq, H. cbn [run_bind buf]. destruct (Nat.leb_spec (length b) (length data - pos)); [|lia]. cbn [run_bind].
      do 3 f_equal. lia.
    - apply skipn_further. assumption.
  Qed.

  Lemma call_end : forall pos data, pos = length data -> slice_parse p (mkSliceStream pos data) = Done (mkSliceStream pos data, inr SEndOfInput).
  Proof.
    intros pos data ->. unfold slice_parse, slice_is_empty, slice_len, usize_sub. cbn [ss_pos ss_slice]. rewrite Nat.leb_refl. cbn [run_bind]. rewrite Nat.sub_diag. reflexivity.
  Qed.
End Calls.

(** What a program gets depends only on what is left of the slice. *)
Lemma on_slice_from : forall I T E (c : script I T E) s1 s2, ss_pos s1 <= length (ss_slice s1) -> ss_pos s2 <= length (ss_slice s2) ->
  skipn (ss_pos s1) (ss_slice s1) = skipn (ss_pos s2) (ss_slice s2) -> on_slice c s1 = on_slice c s2.
Proof.
  induction c as [|p k IH]; intros [p1 d1] [p2 d2] H1 H2 Eq; cbn [ss_pos ss_slice] in *; [reflexivity|]. cbn [on_slice].
  pose proof (f_equal (@length I) Eq) as El. rewrite !skipn_length in El.
  unfold slice_parse, slice_is_empty, slice_len, usize_sub. cbn [ss_pos ss_slice]. destruct (Nat.leb_spec p1 (length d1)); [|lia]. destruct (Nat.leb_spec p2 (length d2)); [|lia].
  cbn [run_bind]. rewrite <- El, <- Eq. destruct (Nat.eqb_spec (length d1 - p1) 0).
  - cbn [run_bind]. rewrite (IH _ (mkSliceStream p1 d1) (mkSliceStream p2 d2)) by assumption. reflexivity.
  - destruct (p (mkInput true (skipn p1 d1))) as [j t|b e|m| |]; cbn [run_bind]; try reflexivity.
    + destruct (Nat.leb_spec (length (buf j)) (length d1 - p1)); [|reflexivity]. cbn [run_bind].
      rewrite (IH _ (mkSliceStream (p1 + (length d1 - p1 - length (buf j))) d1) (mkSliceStream (p2 + (length d1 - p1 - length (buf j))) d2)); cbn [ss_pos ss_slice]; [reflexivity|lia|lia|].
      rewrite !(Nat.add_comm _ (_ - _)), <- !skipn_skipn, Eq. reflexivity.
    + destruct (Nat.leb_spec (length b) (length d1 - p1)); [|reflexivity]. cbn [run_bind].
      rewrite (IH _ (mkSliceStream (p1 + (length d1 - p1 - length b)) d1) (mkSliceStream (p2 + (length d1 - p1 - length b)) d2)); cbn [ss_pos ss_slice]; [reflexivity|lia|lia|].
      rewrite !(Nat.add_comm _ (_ - _)), <- !skipn_skipn, Eq. reflexivity.
    + rewrite (IH _ (mkSliceStream p1 d1) (mkSliceStream p2 d2)) by assumption. reflexivity.
Qed.

(** * Skipping *)

Section Skip.
  Context {I T E : Type}.
  Variable mark : I -> bool.
  Variable conv : error I -> E.
  Variable t0 : T.

  Lemma position_plain : forall x c y, plain mark x -> mark c = true -> position mark (x ++ c :: y) = Some (length x).
  Proof.
    induction x as [|a x IH]; intros c y Hx Hc; cbn; [rewrite Hc; reflexivity|]. inversion Hx; subst. cbn. rewrite H1, IH by assumption. reflexivity.
  Qed.
  Lemma position_none : forall x, plain mark x -> position mark x = None.
  Proof. induction x as [|a x IH]; intros Hx; [reflexivity|]. inversion Hx; subst. cbn. rewrite H1, IH by assumption. reflexivity. Qed.

  Lemma skip_skips : forall x c, plain mark x -> mark c = true -> forall l y, skip_line mark conv t0 (mkInput l (x ++ c :: y)) = Data (mkInput l y) t0.
  Proof.
    intros x c Hx Hc l y. unfold skip_line, take_till. cbn [buf]. rewrite position_plain by assumption. unfold ret, replace. cbn [bind last buf].
    rewrite skipn_app, skipn_all, Nat.sub_diag. reflexivity.
  Qed.
  Lemma skip_waits : forall x l, plain mark x -> skip_line mark conv t0 (mkInput l x) = Incomplete 1.
  Proof. intros x l Hx. unfold skip_line, take_till. cbn [buf]. rewrite position_none by assumption. reflexivity. Qed.
  Lemma skip_safe : safe (skip_line mark conv t0).
  Proof.
    unfold skip_line. apply (@s_bind I _ _ _ _ conv (take_till mark) (fun j _ => bind conv (any j) (fun k (_ : I) => ret t0 k))); [apply s_take_till|]. intros _.
    apply (@s_bind I _ _ _ _ conv any (fun k _ => ret t0 k)); [apply s_any|]. intros _. apply s_ret.
  Qed.
  Lemma plain_or_line : forall x : list I, plain mark x \/ exists y c z, x = y ++ c :: z /\ plain mark y /\ mark c = true.
  Proof.
    induction x as [|a x IH]; [left; constructor|]. destruct (mark a) eqn:Ha; [right; exists [], a, x; repeat split; [constructor|assumption]|].
    destruct IH as [H|(y & c & z & -> & Hy & Hc)]; [left; constructor; assumption|]. right. exists (a :: y), c, z. repeat split; [constructor; assumption|assumption].
  Qed.
  Lemma skip_decides : forall i, skip_line mark conv t0 i <> NoFuel.
  Proof.
    intros [l x]. destruct (plain_or_line x) as [H|(y & c & z & -> & Hy & Hc)]; [rewrite skip_waits by assumption|rewrite skip_skips by assumption]; discriminate.
  Qed.
End Skip.

(** * Grammars within the lines *)

Section Within.
  Context {I : Type}.
  Variable mark : I -> bool.
  Variable eqb : I -> I -> bool.
  Variable g : nat -> peg I.
  Notation derives := (derives eqb g).
  Notation steps := (steps eqb g).
  Hypothesis Hw : forall n, within_line mark eqb (g n).

  (** The rest of the line, behind [s1]. *)
  Definition still (x : list I) (c : I) (y : list I) (s1 : list I) : Prop := exists z x1, x = z ++ x1 /\ s1 = x1 ++ c :: y.

  Lemma still_plain : forall x c y s1, plain mark x -> still x c y s1 -> exists x1, s1 = x1 ++ c :: y /\ plain mark x1 /\ length x1 <= length x.
  Proof.
    intros x c y s1 Hx (z & x1 & -> & ->). exists x1. apply Forall_app in Hx. rewrite app_length. repeat split; [apply Hx|lia].
  Qed.
  Lemma still_trans : forall x c y x1 s2, still x c y (x1 ++ c :: y) -> still x1 c y s2 -> still x c y s2.
  Proof.
    intros x c y x1 s2 (z & x1' & -> & E) (z' & x2 & -> & ->). apply app_inv_tail in E. subst x1'. exists (z ++ z'), x2. rewrite app_assoc. auto.
  Qed.
  Lemma still_refl : forall x c y, still x c y (x ++ c :: y).
  Proof. intros. exists [], x. auto. Qed.

  Definition kept (x : list I) (c : I) (y : list I) (r : option (tree I * list I)) (d : nat) : Prop :=
    d <= length x + 1 /\ forall t s1, r = Some (t, s1) -> still x c y s1.

  Lemma derives_kept :
    (forall e s r d, derives e s r d -> within_line mark eqb e -> forall x c y, s = x ++ c :: y -> plain mark x -> mark c = true -> kept x c y r d) /\
    (forall a s ts s1 d, steps a s ts s1 d -> within_line mark eqb a -> forall x c y, s = x ++ c :: y -> plain mark x -> mark c = true -> d <= length x + 1 /\ still x c y s1).
  Proof.
    assert (Hnext : forall x c y r1 d1 t s1 r2 d2, plain mark x -> kept x c y r1 d1 -> r1 = Some (t, s1) ->
      (forall x1, s1 = x1 ++ c :: y -> plain mark x1 -> kept x1 c y r2 d2) -> kept x c y r2 (seen (x ++ c :: y) s1 d1 d2)).
    { intros x c y r1 d1 t s1 r2 d2 Hx [H1 H2] E Hk. pose proof (H2 _ _ E) as Hs. destruct (still_plain Hx Hs) as (x1 & -> & Hx1 & Hl). destruct (Hk x1 eq_refl Hx1) as [H3 H4]. split.
      - unfold seen. rewrite !app_length. cbn [length]. lia.
      - intros t' s' E'. eapply still_trans; [exact Hs|]. eapply H4; eauto. }
    apply derives_steps_ind; cbn [within_line].
    - intros s _ x c y -> Hx Hc. split; [lia|]. intros t s1 E. inversion E; subst. apply still_refl.
    - (* Sat *) intros f a s Ha Hf x c y E Hx Hc. split; [lia|]. intros t s1 E'. inversion E'; subst. destruct x as [|b x]; inversion E; subst.
      + rewrite (Hf _ Hc) in Ha. discriminate.
      + exists [b], x. auto.
    - intros f a s Ha Hf x c y E Hx Hc. split; [lia|]. discriminate.
    - intros f Hf x c y E Hx Hc. destruct x; discriminate.
    - (* Lit *) intros w z s Hz [Hl Hf] x c y E Hx Hc. split; [lia|]. intros t s1 E'. inversion E'; subst. destruct Hz as [|a b w z Hab Hz]; [cbn in E; subst; apply still_refl|].
      destruct w; [|cbn in Hl; lia]. inversion Hz; subst. cbn in E. destruct x as [|b' x]; inversion E; subst.
      + rewrite (Hf a c (or_introl eq_refl) Hc) in Hab. discriminate.
      + exists [b'], x. auto.
    - intros w s Hn [Hl Hf] x c y E Hx Hc. split; [lia|]. discriminate.
    - (* Run *) intros f z a s Hz Ha Hf x c y E Hx Hc. assert (Hs : exists x1, x = z ++ x1 /\ a :: s = x1 ++ c :: y).
      { revert x E Hx. induction Hz as [|b z Hb Hz IH]; intros x E Hx; [exists x; auto|]. destruct x as [|b' x]; inversion E; subst; [rewrite (Hf _ Hc) in Hb; discriminate|].
        inversion Hx; subst. destruct (IH x H1) as (x1 & -> & E1); [assumption|]. exists x1. auto. }
      destruct Hs as (x1 & -> & Ex). split; [rewrite app_length; lia|]. intros t s1 E'. inversion E'; subst. exists z, x1. auto.
    - intros f z Hz Hf x c y -> Hx Hc. apply Forall_app in Hz. destruct Hz as [_ Hz]. inversion Hz; subst. rewrite (Hf _ Hc) in *. discriminate.
    - (* Seq *) intros a b s t s1 d1 u s2 d2 D1 IH1 D2 IH2 [Ha Hb] x c y -> Hx Hc. specialize (IH1 Ha x c y eq_refl Hx Hc).
      assert (K : kept x c y (Some (u, s2)) (seen (x ++ c :: y) s1 d1 d2)) by (eapply Hnext; eauto). destruct K as [K1 K2]. split; [exact K1|]. intros t' s' E. inversion E; subst. eauto.
    - intros a b s d D IH [Ha Hb] x c y -> Hx Hc. eauto.
    - intros a b s t s1 d1 d2 D1 IH1 D2 IH2 [Ha Hb] x c y -> Hx Hc. eapply Hnext; eauto.
    - (* Then *) intros a b s t s1 d1 r d2 D1 IH1 D2 IH2 [Ha Hb] x c y -> Hx Hc. eapply Hnext; eauto.
    - intros a b s d D IH [Ha Hb] x c y -> Hx Hc. eauto.
    - (* Alt *) intros a b s z d D IH [Ha Hb] x c y -> Hx Hc. eauto.
    - intros a b s d1 r d2 D1 IH1 D2 IH2 [Ha Hb] x c y -> Hx Hc. destruct (IH1 Ha x c y eq_refl Hx Hc), (IH2 Hb x c y eq_refl Hx Hc). split; [lia|assumption].
    - (* Opt *) intros a s z d D IH Ha x c y -> Hx Hc. eauto.
    - intros a s d D IH Ha x c y -> Hx Hc. destruct (IH Ha x c y eq_refl Hx Hc). split; [assumption|]. intros t s1 E. inversion E; subst. apply still_refl.
    - (* Ahead *) intros a s t s1 d D IH Ha x c y -> Hx Hc. destruct (IH Ha x c y eq_refl Hx Hc). split; [assumption|]. intros t' s1' E. inversion E; subst. apply still_refl.
    - eauto.
    - (* Slice *) intros a z t s1 d D IH Ha x c y E Hx Hc. destruct (IH Ha x c y E Hx Hc) as [H1 H2]. split; [assumption|]. intros t' s1' E'. inversion E'; subst. eauto.
    - eauto.
    - (* Star *) intros a s ts s1 d1 d2 S1 IH1 D2 IH2 Ha x c y -> Hx Hc. destruct (IH1 Ha x c y eq_refl Hx Hc) as [H1 H2].
      assert (K : kept x c y (Some (Many ts, s1)) d1) by (split; [assumption|]; intros t' s' E; inversion E; subst; assumption).
      pose proof (Hnext x c y _ _ _ _ None d2 Hx K eq_refl) as N. destruct N as [N _]; [intros; eapply IH2; eauto|]. split; [exact N|]. intros t' s' E. inversion E; subst. assumption.
    - intros a s ts s1 d1 d2 S1 IH1 Hne D2 IH2 Ha x c y -> Hx Hc. destruct (IH1 Ha x c y eq_refl Hx Hc) as [H1 H2].
      assert (K : kept x c y (Some (Many ts, s1)) d1) by (split; [assumption|]; intros t' s' E; inversion E; subst; assumption).
      pose proof (Hnext x c y _ _ _ _ None d2 Hx K eq_refl) as N. destruct N as [N _]; [intros; eapply IH2; eauto|]. split; [exact N|]. intros t' s' E. inversion E; subst. assumption.
    - eauto.
    - (* Times *) intros a s ts s1 d S1 IH1 Ha x c y -> Hx Hc. destruct (IH1 Ha x c y eq_refl Hx Hc) as [H1 H2]. split; [assumption|]. intros t' s' E; inversion E; subst; assumption.
    - intros n a s ts s1 d1 d2 S1 IH1 Hn D2 IH2 Ha x c y -> Hx Hc. destruct (IH1 Ha x c y eq_refl Hx Hc) as [H1 H2].
      assert (K : kept x c y (Some (Many ts, s1)) d1) by (split; [assumption|]; intros t' s' E; inversion E; subst; assumption).
      eapply (Hnext x c y _ _ _ _ None d2 Hx K eq_refl). intros; eapply IH2; eauto.
    - (* Sep *) intros a b s t s1 d1 ts s2 d2 d3 D1 IH1 S2 IH2 D3 IH3 [Ha Hb] x c y -> Hx Hc. specialize (IH1 Ha x c y eq_refl Hx Hc).
      assert (K : kept x c y (Some (Many (t :: ts), s2)) (seen (x ++ c :: y) s1 d1 (seen s1 s2 d2 d3))).
      { eapply Hnext; eauto. intros x1 -> Hx1. destruct (IH2 (conj Hb Ha) x1 c y eq_refl Hx1 Hc) as [H1 H2].
        assert (K : kept x1 c y (Some (Many ts, s2)) d2) by (split; [assumption|]; intros t' s' E; inversion E; subst; assumption).
        pose proof (Hnext x1 c y _ _ _ _ None d3 Hx1 K eq_refl) as N. destruct N as [N _]; [intros; eapply IH3; eauto|]. split; [exact N|]. intros t' s' E. inversion E; subst. assumption. }
      exact K.
    - intros a b s d D IH [Ha Hb] x c y -> Hx Hc. eauto.
    - (* Rule *) intros n s r d D IH _ x c y -> Hx Hc. eapply IH; eauto.
    - intros a s Ha x c y -> Hx Hc. split; [lia|apply still_refl].
    - intros a s t s1 d1 ts s2 d2 D1 IH1 S2 IH2 Ha x c y -> Hx Hc. specialize (IH1 Ha x c y eq_refl Hx Hc).
      assert (K : kept x c y (Some (Many ts, s2)) (seen (x ++ c :: y) s1 d1 d2)).
      { eapply Hnext; eauto. intros x1 -> Hx1. destruct (IH2 Ha x1 c y eq_refl Hx1 Hc) as [H1 H2]. split; [assumption|]. intros t' s' E; inversion E; subst; assumption. }
      destruct K as [K1 K2]. split; [exact K1|eapply K2; eauto].
  Qed.

  (** A line and its end. *)
  Lemma line_kept : forall e x c y r d, within_line mark eqb e -> plain mark x -> mark c = true -> derives (Seq e (Sat mark)) (x ++ c :: y) r d ->
    d <= length x + 1 /\ forall t s1, r = Some (t, s1) -> s1 = y /\ exists t1 d1, t = Both t1 (One c) /\ derives e (x ++ c :: y) (Some (t1, c :: y)) d1.
  Proof.
    intros e x c y r d He Hx Hc D. inversion D; subst.
    - match goal with K : derives e _ (Some (_, s1)) _ |- _ => rename K into D1 end. match goal with K : derives (Sat mark) _ _ _ |- _ => rename K into D2 end.
      destruct (proj1 derives_kept _ _ _ _ D1 He x c y eq_refl Hx Hc) as [H1 H2]. destruct (still_plain Hx (H2 _ _ eq_refl)) as (x1 & -> & Hx1 & Hl).
      destruct x1 as [|a x1]; cbn [app] in D2; inversion D2; subst.
      + cbn in *. split; [unfold seen; rewrite app_length; cbn; lia|]. intros t' s1 E. inversion E; subst. eauto 10.
      + inversion Hx1; subst. congruence.
    - match goal with K : derives e _ None _ |- _ => rename K into D1 end. destruct (proj1 derives_kept _ _ _ _ D1 He x c y eq_refl Hx Hc) as [H1 _]. split; [assumption|discriminate].
    - match goal with K : derives e _ (Some (_, s1)) _ |- _ => rename K into D1 end. match goal with K : derives (Sat mark) _ _ _ |- _ => rename K into D2 end.
      destruct (proj1 derives_kept _ _ _ _ D1 He x c y eq_refl Hx Hc) as [H1 H2]. destruct (still_plain Hx (H2 _ _ eq_refl)) as (x1 & -> & Hx1 & Hl).
      split; [|discriminate]. assert (d2 = 1) by (inversion D2; reflexivity). subst d2. unfold seen. rewrite !app_length. cbn [length]. lia.
  Qed.
End Within.
