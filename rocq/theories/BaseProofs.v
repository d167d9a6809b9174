(** Lemmas about Base and Parsers. *)
From Coq Require Import List Bool Arith Lia.
From Verif Require Import Base Parsers Combinators SpecBase.
Import ListNotations.

Set Implicit Arguments.

Lemma map_err_same : forall I T E (r : pres I T E), map_err (fun e => e) r = r.
Proof. destruct r; reflexivity. Qed.

(** * Monad *)
Lemma ret_bind : forall I T U E V (conv : E -> V) (t : T) (i : input I) (f : input I -> T -> pres I U V),
  bind conv (ret t i) f = f i t.
Proof. intros. unfold bind, ret. apply map_err_same. Qed.

Lemma bind_ret : forall I T E (m : pres I T E), bind (fun e => e) m (fun i t => ret t i) = m.
Proof. destruct m; reflexivity. Qed.

Lemma bind_assoc : forall I T U W E V X (c1 : E -> V) (c2 : V -> X) (c3 : E -> X)
  (m : pres I T E) (f : input I -> T -> pres I U V) (g : input I -> U -> pres I W X),
  bind c2 (bind c1 m f) g = bind c3 m (fun i t => bind c2 (f i t) g) <->
  (forall b e, m = Error b e -> c2 (c1 e) = c3 e).
Proof.
  intros I T U W E V X c1 c2 c3 m f g. destruct m as [i t|b e|n| |]; simpl.
  - split; [intros _ b e H; discriminate|]. intros _. rewrite !map_err_same. reflexivity.
  - split.
    + intros H b0 e0 Heq. inversion Heq; subst. inversion H. reflexivity.
    + intros H. f_equal. eapply H; reflexivity.
  - split; [intros _ b e H; discriminate|reflexivity].
  - split; [intros _ b e H; discriminate|reflexivity].
  - split; [intros _ b e H; discriminate|reflexivity].
Qed.

Lemma then_is_bind : forall I T U E V (conv : E -> V) (m : pres I T E) (f : input I -> pres I U V),
  then_ conv m f =
  match m with
  | Data i _ => f i
  | Error b e => Error b (conv e)
  | Incomplete n => Incomplete n
  | Panic => Panic
  | NoFuel => NoFuel
  end.
Proof. intros. destruct m; unfold then_, bind; auto. apply map_err_same. Qed.

(** * take_while and friends *)

Lemma position_some : forall A (f : A -> bool) b n,
  position f b = Some n <->
  exists x c y, b = x ++ c :: y /\ length x = n /\ f c = true /\ Forall (fun a => f a = false) x.
Proof.
  intros A f. induction b as [|a b IH]; intros n; simpl.
  - split; [discriminate|]. intros (x & c & y & H & _). destruct x; discriminate.
  - destruct (f a) eqn:Ha.
    + split.
      * intros H; inversion H; subst. exists [], a, b. repeat split; auto.
      * intros (x & c & y & H & Hl & Hc & Hx). destruct x as [|a' x]; simpl in *; [subst; auto|].
        inversion H; subst. inversion Hx; congruence.
    + destruct (position f b) as [m|]; simpl.
      * split.
        -- intros H; inversion H; subst. destruct (proj1 (IH m) eq_refl) as (x & c & y & -> & Hl & Hc & Hx).
           exists (a :: x), c, y. simpl. repeat split; auto.
        -- intros (x & c & y & H & Hl & Hc & Hx). destruct x as [|a' x]; simpl in *; inversion H; subst; [congruence|].
           f_equal. inversion Hx; subst. assert (Hm : Some m = Some (length x)) by (apply IH; exists x, c, y; auto). congruence.
      * split; [discriminate|]. intros (x & c & y & H & Hl & Hc & Hx).
        destruct x as [|a' x]; simpl in *; inversion H; subst; [congruence|]. inversion Hx; subst.
        assert (Hm : None = Some (length x)) by (apply IH; exists x, c, y; auto). discriminate.
Qed.

Lemma position_none : forall A (f : A -> bool) b, position f b = None <-> Forall (fun a => f a = false) b.
Proof.
  intros A f. induction b as [|a b IH]; simpl.
  - split; auto.
  - destruct (f a) eqn:Ha.
    + split; [discriminate|]. intros H; inversion H; congruence.
    + split.
      * destruct (position f b); simpl; [discriminate|]. intros _. constructor; auto. apply IH; reflexivity.
      * intros H; inversion H as [|? ? Hh Ht]; subst. apply IH in Ht. rewrite Ht. reflexivity.
Qed.

Lemma firstn_length_app : forall A (x y : list A), firstn (length x) (x ++ y) = x.
Proof. intros. rewrite firstn_app, Nat.sub_diag, firstn_all. simpl. apply app_nil_r. Qed.
Lemma skipn_length_app : forall A (x y : list A), skipn (length x) (x ++ y) = y.
Proof. intros. rewrite skipn_app, Nat.sub_diag, skipn_all. reflexivity. Qed.

Lemma eqb_false_negb : forall b, Bool.eqb b false = negb b.
Proof. destruct b; reflexivity. Qed.

Lemma forall_negb : forall A (f : A -> bool) x, Forall (fun a => Bool.eqb (f a) false = false) x <-> Forall (fun a => f a = true) x.
Proof. intros. split; apply Forall_impl; intros a; destruct (f a); simpl; congruence. Qed.

(** Splitting at the first item that fails [f] is unique. *)
Lemma split_unique : forall A (f : A -> bool) x c y x' c' y',
  x ++ c :: y = x' ++ c' :: y' -> Forall (fun a => f a = true) x -> Forall (fun a => f a = true) x' ->
  f c = false -> f c' = false -> x = x' /\ c = c' /\ y = y'.
Proof.
  intros A f. induction x as [|a x IH]; intros c y x' c' y' H Hx Hx' Hc Hc'; destruct x' as [|a' x']; simpl in *; inversion H; subst; auto.
  - inversion Hx'; congruence.
  - inversion Hx; congruence.
  - inversion Hx; inversion Hx'; subst. destruct (IH _ _ _ _ _ H2) as (-> & -> & ->); auto.
Qed.

Arguments split_unique {A f x c y x' c' y'} _ _ _ _ _.

Lemma take_while_spec : forall I (f : I -> bool) l b res,
  take_while f (mkInput l b) = res <->
  (exists x c y, b = x ++ c :: y /\ Forall (fun a => f a = true) x /\ f c = false /\ res = Data (mkInput l (c :: y)) x) \/
  (Forall (fun a => f a = true) b /\ l = true /\ res = Data (mkInput l []) b) \/
  (Forall (fun a => f a = true) b /\ l = false /\ res = Incomplete 1).
Proof.
  intros I f l b res. unfold take_while. simpl.
  destruct (position (fun c => Bool.eqb (f c) false) b) as [n|] eqn:Hp.
  - apply position_some in Hp. destruct Hp as (x & c & y & -> & <- & Hc & Hx). rewrite forall_negb in Hx.
    rewrite eqb_false_negb in Hc. apply negb_true_iff in Hc.
    unfold ret, replace; simpl. rewrite firstn_length_app, skipn_length_app. split.
    + intros <-. left. exists x, c, y. auto.
    + intros [(x' & c' & y' & H & Hx' & Hc' & ->)|[(H & _)|(H & _)]].
      * destruct (split_unique H Hx Hx' Hc Hc') as (-> & -> & ->). reflexivity.
      * rewrite Forall_app in H. destruct H as [_ H]. inversion H; congruence.
      * rewrite Forall_app in H. destruct H as [_ H]. inversion H; congruence.
  - apply position_none in Hp. rewrite forall_negb in Hp. unfold ret, replace, incomplete; simpl. split.
    + intros <-. right. destruct l; auto.
    + intros [(x' & c' & y' & -> & Hx' & Hc' & _)|[(H & -> & ->)|(H & -> & ->)]]; auto.
      rewrite Forall_app in Hp. destruct Hp as [_ Hp]. inversion Hp; congruence.
Qed.

Lemma take_while1_spec : forall I verbose (f : I -> bool) l b res,
  take_while1 verbose f (mkInput l b) = res <->
  (exists x c y, b = x ++ c :: y /\ x <> [] /\ Forall (fun a => f a = true) x /\ f c = false /\ res = Data (mkInput l (c :: y)) x) \/
  (exists c y, b = c :: y /\ f c = false /\ res = Error b (if verbose then Unexpected else EPlain)) \/
  (b <> [] /\ Forall (fun a => f a = true) b /\ l = true /\ res = Data (mkInput l []) b) \/
  (Forall (fun a => f a = true) b /\ (b = [] \/ l = false) /\ res = Incomplete 1).
Proof.
  intros I verbose f l b res. unfold take_while1. simpl.
  destruct (position (fun c => Bool.eqb (f c) false) b) as [n|] eqn:Hp.
  - apply position_some in Hp. destruct Hp as (x & c & y & -> & <- & Hc & Hx). rewrite forall_negb in Hx.
    rewrite eqb_false_negb in Hc. apply negb_true_iff in Hc.
    assert (Hno : forall P : Prop, Forall (fun a => f a = true) (x ++ c :: y) -> P).
    { intros P H. rewrite Forall_app in H. destruct H as [_ H]. inversion H; congruence. }
    destruct x as [|x0 x]; simpl length; cbv iota.
    + simpl app in *. unfold err, err_unexpected; simpl. split.
      * intros <-. right; left. exists c, y. auto.
      * intros [(x' & c' & y' & H & Hne & Hx' & Hc' & ->)|[(c' & y' & H & _ & ->)|[(_ & H & _)|(H & _)]]]; try (exact (Hno _ H)).
        -- destruct (@split_unique _ f [] c y x' c' y' H Hx Hx' Hc Hc') as (<- & _). congruence.
        -- reflexivity.
    + change (S (length x)) with (length (x0 :: x)). unfold ret, replace; cbn [buf last].
      rewrite firstn_length_app, skipn_length_app. split.
      * intros <-. left. exists (x0 :: x), c, y. repeat split; auto. discriminate.
      * intros [(x' & c' & y' & H & Hne & Hx' & Hc' & ->)|[(c' & y' & H & Hc' & ->)|[(_ & H & _)|(H & _)]]]; try (exact (Hno _ H)).
        -- destruct (split_unique H Hx Hx' Hc Hc') as (<- & <- & <-). reflexivity.
        -- simpl in H. inversion H; subst. inversion Hx; congruence.
  - apply position_none in Hp. rewrite forall_negb in Hp. unfold ret, replace, incomplete; simpl.
    assert (Hno : forall x c y, b = x ++ c :: y -> f c = false -> False).
    { intros x c y -> Hc. rewrite Forall_app in Hp. destruct Hp as [_ Hp]. inversion Hp; congruence. }
    split.
    + intros <-. destruct b as [|b0 b]; simpl; [right; right; right; auto|].
      change (0 <? S (length b)) with true. destruct l; simpl.
      * right; right; left. repeat split; auto. discriminate.
      * right; right; right. auto.
    + intros [(x' & c' & y' & H & _ & _ & Hc' & _)|[(c' & y' & H & Hc' & _)|[(Hne & H & -> & ->)|(H & Ho & ->)]]].
      * exfalso; eauto. * exfalso; eapply (Hno []); eauto.
      * destruct b; [congruence|]. reflexivity.
      * destruct b; auto. destruct Ho as [Ho| ->]; [discriminate|]. rewrite andb_false_r. reflexivity.
Qed.

Lemma take_till_spec : forall I (f : I -> bool) l b res,
  take_till f (mkInput l b) = res <->
  (exists x c y, b = x ++ c :: y /\ Forall (fun a => f a = false) x /\ f c = true /\ res = Data (mkInput l (c :: y)) x) \/
  (Forall (fun a => f a = false) b /\ res = Incomplete 1).
Proof.
  intros I f l b res. unfold take_till. simpl.
  destruct (position f b) as [n|] eqn:Hp.
  - apply position_some in Hp. destruct Hp as (x & c & y & -> & <- & Hc & Hx).
    unfold ret, replace; simpl. rewrite firstn_length_app, skipn_length_app. split.
    + intros <-. left. exists x, c, y. auto.
    + intros [(x' & c' & y' & H & Hx' & Hc' & ->)|(H & _)].
      * assert (Hn : forall z, Forall (fun a => f a = false) z -> Forall (fun a => negb (f a) = true) z)
          by (intros z; apply Forall_impl; intros a Ha; rewrite Ha; reflexivity).
        destruct (@split_unique _ (fun a => negb (f a)) x c y x' c' y' H) as (-> & -> & ->); auto;
          apply negb_false_iff; auto.
      * rewrite Forall_app in H. destruct H as [_ H]. inversion H; congruence.
  - apply position_none in Hp. unfold incomplete; simpl. split.
    + intros <-. auto.
    + intros [(x' & c' & y' & -> & Hx' & Hc' & _)|(H & ->)]; auto.
      rewrite Forall_app in Hp. destruct Hp as [_ Hp]. inversion Hp; congruence.
Qed.

(** * take *)
Lemma take_enough : forall I n l (x y : list I), length x = n -> take n (mkInput l (x ++ y)) = Data (mkInput l y) x.
Proof.
  intros I n l x y <-. unfold take; simpl. rewrite app_length.
  destruct (Nat.leb_spec (length x) (length x + length y)); [|lia].
  unfold ret, replace; simpl. rewrite firstn_length_app, skipn_length_app. reflexivity.
Qed.
Lemma take_short : forall I n k l (b : list I), length b + k = n -> 1 <= k -> take n (mkInput l b) = Incomplete k.
Proof.
  intros I n k l b Hn Hk. unfold take; simpl. destruct (Nat.leb_spec n (length b)); [lia|].
  unfold incomplete. f_equal. lia.
Qed.

(** * scan *)
Lemma run_scanner_stop : forall I S (f : S -> I -> option S) x s s1 c y, accepts f s x s1 -> f s1 c = None ->
  position_st (fun state c => match f state c with None => (true, state) | Some v => (false, v) end) s (x ++ c :: y)
  = (Some (length x), s1).
Proof.
  induction x as [|a x IH]; intros s s1 c y H Hc; inversion H as [|? ? ? ? ? Hf Hx]; subst; simpl.
  - rewrite Hc. reflexivity.
  - rewrite Hf. rewrite (IH _ _ _ _ Hx Hc). reflexivity.
Qed.
Lemma run_scanner_all : forall I S (f : S -> I -> option S) x s s1, accepts f s x s1 ->
  position_st (fun state c => match f state c with None => (true, state) | Some v => (false, v) end) s x = (None, s1).
Proof.
  induction x as [|a x IH]; intros s s1 H; inversion H as [|? ? ? ? ? Hf Hx]; subst; simpl.
  - reflexivity.
  - rewrite Hf. rewrite (IH _ _ Hx). reflexivity.
Qed.

Definition scan_step {I S} (f : S -> I -> option S) :=
  fun (st : option (option S)) (c : I) =>
      match st with
      | Some (Some s0) => let st' := f s0 c in (match st' with None => true | Some _ => false end, Some st')
      | _ => (true, None)
      end.
Lemma scan_stop : forall I S (f : S -> I -> option S) x s s1 c y, accepts f s x s1 -> f s1 c = None ->
  position_st (scan_step f) (Some (Some s)) (x ++ c :: y) = (Some (length x), Some None).
Proof.
  induction x as [|a x IH]; intros s s1 c y H Hc; inversion H as [|? ? ? ? ? Hf Hx]; subst; simpl.
  - rewrite Hc. reflexivity.
  - rewrite Hf. rewrite (IH _ _ _ _ Hx Hc). reflexivity.
Qed.
Lemma scan_all : forall I S (f : S -> I -> option S) x s s1, accepts f s x s1 ->
  position_st (scan_step f) (Some (Some s)) x = (None, Some (Some s1)).
Proof.
  induction x as [|a x IH]; intros s s1 H; inversion H as [|? ? ? ? ? Hf Hx]; subst; simpl.
  - reflexivity.
  - rewrite Hf. rewrite (IH _ _ Hx). reflexivity.
Qed.

(** Every slice is accepted entirely or split at the first rejected item, in one way only. *)
Lemma accepts_cases : forall I S (f : S -> I -> option S) b s,
  (exists s1, accepts f s b s1) \/ (exists x c y s1, b = x ++ c :: y /\ accepts f s x s1 /\ f s1 c = None).
Proof.
  intros I S f. induction b as [|a b IH]; intros s.
  - left. exists s. constructor.
  - destruct (f s a) as [s1|] eqn:Hf.
    + destruct (IH s1) as [(s2 & H)|(x & c & y & s2 & -> & Hx & Hc)].
      * left. exists s2. econstructor; eauto.
      * right. exists (a :: x), c, y, s2. repeat split; auto. econstructor; eauto.
    + right. exists [], a, b, s. repeat split; auto. constructor.
Qed.
Lemma accepts_unique : forall I S (f : S -> I -> option S) x s s1 c y x' s1' c' y',
  x ++ c :: y = x' ++ c' :: y' -> accepts f s x s1 -> f s1 c = None -> accepts f s x' s1' -> f s1' c' = None ->
  x = x' /\ c = c' /\ y = y' /\ s1 = s1'.
Proof.
  intros I S f. induction x as [|a x IH]; intros s s1 c y x' s1' c' y' H Hx Hc Hx' Hc'; destruct x' as [|a' x']; simpl in *; inversion H; subst;
    inversion Hx as [|? ? ? ? ? Hf Hr]; inversion Hx' as [|? ? ? ? ? Hf' Hr']; subst; auto; try congruence.
  rewrite Hf in Hf'. inversion Hf'; subst. match goal with He : _ ++ _ = _ ++ _ |- _ => destruct (IH _ _ _ _ _ _ _ _ He Hr Hc Hr' Hc') as (-> & -> & -> & ->) end. auto.
Qed.
Arguments accepts_unique {I S f x s s1 c y x' s1' c' y'} _ _ _ _ _.

Lemma accepts_not_both : forall I S (f : S -> I -> option S) x s s1 s2 c y,
  accepts f s (x ++ c :: y) s2 -> accepts f s x s1 -> f s1 c = None -> False.
Proof.
  intros I S f. induction x as [|a x IH]; intros s s1 s2 c y H Hx Hc; simpl in H;
    inversion H as [|? ? ? ? ? Hf Hr]; inversion Hx as [|? ? ? ? ? Hf' Hr']; subst; [congruence|].
  rewrite Hf in Hf'. inversion Hf'; subst. eauto.
Qed.

Lemma scan_spec : forall I S (f : S -> I -> option S) s l b res,
  scan s f (mkInput l b) = res <->
  (exists x c y s1, b = x ++ c :: y /\ accepts f s x s1 /\ f s1 c = None /\ res = Data (mkInput l (c :: y)) x) \/
  (exists s1, accepts f s b s1 /\ res = Incomplete 1).
Proof.
  intros I S f s l b res. unfold scan. simpl. fold (scan_step f).
  destruct (accepts_cases f b s) as [(s1 & H)|(x & c & y & s1 & -> & Hx & Hc)].
  - rewrite (scan_all H). split.
    + intros <-. right. eauto.
    + intros [(x & c & y & s2 & -> & Hx & Hc & _)|(s2 & _ & ->)]; auto. exfalso. eapply accepts_not_both; eauto.
  - rewrite (scan_stop _ _ Hx Hc). unfold ret, replace; simpl. rewrite firstn_length_app, skipn_length_app. split.
    + intros <-. left. exists x, c, y, s1. auto.
    + intros [(x' & c' & y' & s2 & He & Hx' & Hc' & ->)|(s2 & H & _)].
      * destruct (accepts_unique He Hx Hc Hx' Hc') as (-> & -> & -> & ->). reflexivity.
      * exfalso. eapply accepts_not_both; eauto.
Qed.

Lemma run_scanner_spec : forall I S (f : S -> I -> option S) s l b res,
  run_scanner s f (mkInput l b) = res <->
  (exists x c y s1, b = x ++ c :: y /\ accepts f s x s1 /\ f s1 c = None /\ res = Data (mkInput l (c :: y)) (x, s1)) \/
  (exists s1, accepts f s b s1 /\ res = Incomplete 1).
Proof.
  intros I S f s l b res. unfold run_scanner. simpl.
  destruct (accepts_cases f b s) as [(s1 & H)|(x & c & y & s1 & -> & Hx & Hc)].
  - rewrite (run_scanner_all H). split.
    + intros <-. right. eauto.
    + intros [(x & c & y & s2 & -> & Hx & Hc & _)|(s2 & _ & ->)]; auto. exfalso. eapply accepts_not_both; eauto.
  - rewrite (run_scanner_stop _ _ Hx Hc). unfold ret, replace; simpl. rewrite firstn_length_app, skipn_length_app. split.
    + intros <-. left. exists x, c, y, s1. auto.
    + intros [(x' & c' & y' & s2 & He & Hx' & Hc' & ->)|(s2 & H & _)].
      * destruct (accepts_unique He Hx Hc Hx' Hc') as (-> & -> & -> & ->). reflexivity.
      * exfalso. eapply accepts_not_both; eauto.
Qed.

(** * string *)
Lemma string_mismatch_some : forall I (eqb : I -> I -> bool) s d j n,
  string_mismatch eqb j s d = Some n <-> exists k, n = j + k /\ first_difference eqb s d k.
Proof.
  intros I eqb. induction s as [|x s IH]; intros d j n; simpl.
  - split; [discriminate|]. intros (k & _ & x & y & H & _). destruct k; discriminate.
  - destruct d as [|y d]; [split; [discriminate|]|].
    + intros (k & _ & x' & y & _ & H & _). destruct k; discriminate.
    + destruct (eqb x y) eqn:He; simpl.
      * rewrite IH. split.
        -- intros (k & -> & x' & y' & H1 & H2 & H3 & H4). exists (S k). split; [lia|]. exists x', y'. simpl. repeat split; auto.
           intros [|k'] Hk; simpl; [eauto|]. apply H4. lia.
        -- intros (k & -> & x' & y' & H1 & H2 & H3 & H4). destruct k as [|k]; simpl in *; [congruence|].
           exists k. split; [lia|]. exists x', y'. repeat split; auto. intros k' Hk. apply (H4 (S k')). lia.
      * split.
        -- intros H; inversion H; subst. exists 0. split; [lia|]. exists x, y. simpl. repeat split; auto. intros; lia.
        -- intros (k & -> & x' & y' & H1 & H2 & H3 & H4). destruct k as [|k]; [f_equal; lia|].
           destruct (H4 0) as (x2 & y2 & E1 & E2 & E3); [lia|]. simpl in *. congruence.
Qed.
Lemma string_mismatch_none : forall I (eqb : I -> I -> bool) s d j, length d = length s ->
  (string_mismatch eqb j s d = None <-> same_items eqb s d).
Proof.
  intros I eqb. induction s as [|x s IH]; intros d j Hl; destruct d as [|y d]; simpl in *; try discriminate.
  - split; auto. constructor.
  - destruct (eqb x y) eqn:He; simpl.
    + rewrite IH by lia. split; [constructor; auto|]. intros H; inversion H; auto.
    + split; [discriminate|]. intros H; inversion H; congruence.
Qed.

Lemma same_items_length : forall A (eqb : A -> A -> bool) xs ys, same_items eqb xs ys -> length xs = length ys.
Proof. intros A eqb xs ys H. induction H; simpl; auto. Qed.

Lemma string_short : forall I verbose (eqb : I -> I -> bool) s l b k,
  length b + k = length s -> 1 <= k -> string verbose eqb s (mkInput l b) = Incomplete k.
Proof.
  intros I verbose eqb s l b k H Hk. unfold string; simpl. destruct (Nat.ltb_spec (length b) (length s)); [|lia].
  unfold incomplete. f_equal. lia.
Qed.
Lemma string_match : forall I verbose (eqb : I -> I -> bool) s l x y,
  same_items eqb s x -> string verbose eqb s (mkInput l (x ++ y)) = Data (mkInput l y) x.
Proof.
  intros I verbose eqb s l x y H. assert (Hl : length s = length x) by (eapply same_items_length; eauto).
  unfold string; simpl. rewrite app_length. destruct (Nat.ltb_spec (length x + length y) (length s)); [lia|].
  rewrite Hl, firstn_length_app, skipn_length_app. rewrite (proj2 (string_mismatch_none eqb s x 0 (eq_sym Hl)) H). reflexivity.
Qed.
Lemma string_mismatch_spec : forall I verbose (eqb : I -> I -> bool) s l x y n,
  length x = length s -> first_difference eqb s x n ->
  string verbose eqb s (mkInput l (x ++ y)) =
  if verbose then Error (x ++ y) (EString s) else Error (skipn n (x ++ y)) EPlain.
Proof.
  intros I verbose eqb s l x y n Hl H.
  unfold string; simpl. rewrite app_length. destruct (Nat.ltb_spec (length x + length y) (length s)); [lia|].
  rewrite <- Hl, firstn_length_app.
  rewrite (proj2 (string_mismatch_some eqb s x 0 n)) by (exists n; auto).
  unfold err_string, err, replace; simpl. reflexivity.
Qed.
Lemma string_total : forall I (eqb : I -> I -> bool) s b,
  (length b < length s) \/
  (exists x y, b = x ++ y /\ same_items eqb s x) \/
  (exists x y n, b = x ++ y /\ length x = length s /\ first_difference eqb s x n).
Proof.
  intros I eqb s b. destruct (Nat.lt_ge_cases (length b) (length s)) as [H|H]; auto. right.
  assert (Hl : length (firstn (length s) b) = length s) by (rewrite firstn_length; lia).
  destruct (string_mismatch eqb 0 s (firstn (length s) b)) as [n|] eqn:Hm.
  - right. apply string_mismatch_some in Hm. destruct Hm as (k & _ & Hd).
    exists (firstn (length s) b), (skipn (length s) b), k. rewrite firstn_skipn. auto.
  - left. apply string_mismatch_none in Hm; auto. exists (firstn (length s) b), (skipn (length s) b).
    rewrite firstn_skipn. auto.
Qed.

(** * or, option *)
Lemma or_assoc : forall I T E (f g h : parser I T E) i, or_ (or_ f g) h i = or_ f (or_ g h) i.
Proof.
  intros. unfold or_, ret, incomplete. destruct (f i) as [j t|b e|n| |]; auto. destruct (last i) eqn:Hl; auto.
Qed.
Lemma or_idem : forall I T E (f : parser I T E) i, or_ f f i = f i.
Proof. intros. unfold or_, ret, incomplete. destruct (f i) as [j t|b e|n| |] eqn:H; auto. destruct (last i); auto. Qed.
