(** Proofs about the programs in the documentation. *)
From Coq Require Import List Bool Arith ZArith Lia.
From Coq.Init Require Import Byte.
From Coq.Strings Require Import Byte.
From Verif Require Import Base Parsers Combinators Ascii SpecBase SpecAscii Http Docs SpecDocs BaseProofs AsciiProofs HttpProofs.
From Verif Require Import PropsBase PropsAscii.
Import ListNotations.

Set Implicit Arguments.
Close Scope Z_scope.

(** * [take_while], [take_while1] *)
Section While.
  Variable f : byte -> bool.
  Variables verbose l : bool.
  Lemma tw1_stop : forall x c y, x <> [] -> Forall (fun a => f a = true) x -> f c = false ->
    take_while1 verbose f (mkInput l (x ++ c :: y)) = Data (mkInput l (c :: y)) x.
  Proof. intros x c y H1 H2 H3. apply C05_take_while1. left. exists x, c, y. auto. Qed.
  Lemma tw1_none : forall c y, f c = false -> take_while1 verbose f (mkInput l (c :: y)) = Error (c :: y) (unexpected verbose).
  Proof. intros c y H. apply C05_take_while1. right. left. exists c, y. auto. Qed.
  Lemma tw1_all : forall x, x <> [] -> Forall (fun a => f a = true) x ->
    take_while1 verbose f (mkInput l x) = if l then Data (mkInput l []) x else Incomplete 1.
  Proof. intros x H1 H2. apply C05_take_while1. destruct l; [right; right; left; auto|right; right; right; auto]. Qed.
  Lemma tw1_empty : take_while1 verbose f (mkInput l []) = Incomplete 1.
  Proof. apply C05_take_while1. right. right. right. auto. Qed.
  Lemma tw_stop : forall x c y, Forall (fun a => f a = true) x -> f c = false -> take_while f (mkInput l (x ++ c :: y)) = Data (mkInput l (c :: y)) x.
  Proof. intros x c y H1 H2. apply C05_take_while. left. exists x, c, y. auto. Qed.
  Lemma tw_all : forall x, Forall (fun a => f a = true) x -> take_while f (mkInput l x) = if l then Data (mkInput l []) x else Incomplete 1.
  Proof. intros x H. apply C05_take_while. destruct l; auto. Qed.
  (** A text starts with some that pass. *)
  Lemma split_while : forall s, Forall (fun a => f a = true) s \/ exists x c y, s = x ++ c :: y /\ Forall (fun a => f a = true) x /\ f c = false.
  Proof.
    induction s as [|a s IH]; [left; constructor|]. destruct (f a) eqn:Ha; [|right; exists [], a, s; auto].
    destruct IH as [H|(x & c & y & -> & H1 & H2)]; [left; constructor; auto|]. right. exists (a :: x), c, y. auto.
  Qed.
  Lemma while_cases : forall s, s = [] \/ (exists c y, s = c :: y /\ f c = false) \/ (s <> [] /\ Forall (fun a => f a = true) s) \/
    exists x c y, s = x ++ c :: y /\ x <> [] /\ Forall (fun a => f a = true) x /\ f c = false.
  Proof.
    intros [|a s]; [auto|]. right. destruct (split_while (a :: s)) as [H|(x & c & y & H & H1 & H2)].
    - right. left. split; [discriminate|assumption].
    - destruct x as [|b x]; cbn in H; [left; eauto|]. right. right. exists (b :: x), c, y. repeat split; auto; discriminate.
  Qed.
End While.

Lemma other_than_all : forall c w, Forall (fun a => other_than c a = true) w <-> ~ In c w.
Proof.
  intros c w. rewrite Forall_forall. unfold other_than. split.
  - intros H Hin. specialize (H c Hin). rewrite (proj2 (byte_eqb_eq c c) eq_refl) in H. discriminate.
  - intros H a Ha. destruct (byte_eqb a c) eqn:Heq; [|reflexivity]. apply byte_eqb_eq in Heq. subst. contradiction.
Qed.
Lemma other_than_not : forall c a, other_than c a = false <-> a = c.
Proof. intros c a. unfold other_than. rewrite negb_false_iff. apply byte_eqb_eq. Qed.
Lemma token_here : forall verbose l c r, token verbose byte_eqb c (mkInput l (c :: r)) = Data (mkInput l r) c.
Proof. intros. apply (C03_token byte verbose byte_eqb c l c r). apply byte_eqb_eq. reflexivity. Qed.
Lemma token_not : forall verbose l c d r, c <> d -> token verbose byte_eqb c (mkInput l (d :: r)) = Error (d :: r) (expected verbose c).
Proof.
  intros. apply (C03_token byte verbose byte_eqb c l d r). destruct (byte_eqb c d) eqn:Heq; [|reflexivity]. apply byte_eqb_eq in Heq. contradiction.
Qed.
Lemma token_end : forall verbose l c, token verbose byte_eqb c (mkInput l []) = Incomplete 1.
Proof. reflexivity. Qed.

(** * [name] *)
Lemma name_reads : forall verbose l s o, name_reading verbose l s o -> doc_name verbose (mkInput l s) = o.
Proof.
  intros verbose l s o H. unfold doc_name, stmt. destruct H as [|r|f [Hf Hs]|f [Hf Hs]|f r [Hf Hs]|f w [Hf Hs] [Hw Hn]|f w r [Hf Hs] [Hw Hn]];
    try (rewrite <- other_than_all in Hs); try (rewrite <- other_than_all in Hn).
  - rewrite tw1_empty. reflexivity.
  - rewrite tw1_none by reflexivity. reflexivity.
  - rewrite tw1_all by assumption. destruct l; reflexivity.
  - rewrite tw1_stop by auto. cbn [bind]. rewrite token_here. cbn [bind]. rewrite tw1_empty. reflexivity.
  - rewrite tw1_stop by auto. cbn [bind]. rewrite token_here. cbn [bind]. rewrite tw1_none by reflexivity. reflexivity.
  - rewrite tw1_stop by auto. cbn [bind]. rewrite token_here. cbn [bind]. rewrite tw1_all by assumption. destruct l; reflexivity.
  - rewrite tw1_stop by auto. cbn [bind]. rewrite token_here. cbn [bind]. rewrite tw1_stop by auto. reflexivity.
Qed.
Lemma name_total : forall verbose l s, exists o, name_reading verbose l s o.
Proof.
  intros verbose l s. destruct (while_cases (other_than " "%byte) s) as [->|[(c & y & -> & Hc)|[[Hs H]|(x & c & y & -> & Hx & H & Hc)]]].
  - eexists; constructor.
  - apply other_than_not in Hc. subst c. eexists; constructor.
  - rewrite other_than_all in H. eexists. apply nr_first. split; assumption.
  - apply other_than_not in Hc. subst c. rewrite other_than_all in H.
    destruct (while_cases (other_than x0a) y) as [->|[(c & z & -> & Hc)|[[Hy H']|(w & c & z & -> & Hw & H' & Hc)]]].
    + eexists. apply nr_first_space. split; assumption.
    + apply other_than_not in Hc. subst c. eexists. apply nr_newline. split; assumption.
    + rewrite other_than_all in H'. eexists. apply nr_open; split; assumption.
    + apply other_than_not in Hc. subst c. rewrite other_than_all in H'. eexists. apply nr_line; split; assumption.
Qed.
Lemma name_exact : forall verbose l s o, doc_name verbose (mkInput l s) = o <-> name_reading verbose l s o.
Proof.
  intros verbose l s o. split; [|apply name_reads]. intros <-. destruct (name_total verbose l s) as [o H]. rewrite (name_reads H). exact H.
Qed.

(** * The first heading *)
Lemma whitespace_blank : forall c, Ascii.is_whitespace c = true <-> blank c.
Proof. exact C22_whitespace. Qed.
Lemma in_line_spec : forall c, in_line c = true <-> ~ line_end c.
Proof.
  intros c. unfold in_line, other_than, line_end. rewrite andb_true_iff, !negb_true_iff, <- !not_true_iff_false, !byte_eqb_eq. tauto.
Qed.
Lemma in_line_not : forall c, in_line c = false <-> line_end c.
Proof.
  intros c. unfold in_line, other_than, line_end. rewrite andb_false_iff, !negb_false_iff, !byte_eqb_eq. tauto.
Qed.
Lemma line_end_blank : forall c, line_end c -> blank c.
Proof. intros c [->| ->]; unfold blank; cbn; tauto. Qed.
Lemma blank_all : forall ws, Forall blank ws <-> Forall (fun a => Ascii.is_whitespace a = true) ws.
Proof. intros ws. split; apply Forall_impl; intros c; apply whitespace_blank. Qed.
Lemma line_all : forall ws, Forall (fun c => ~ line_end c) ws <-> Forall (fun a => in_line a = true) ws.
Proof. intros ws. split; apply Forall_impl; intros c; apply in_line_spec. Qed.
Lemma not_blank : forall c, ~ blank c <-> Ascii.is_whitespace c = false.
Proof. intros c. rewrite <- whitespace_blank. rewrite not_true_iff_false. reflexivity. Qed.

Lemma heading_reads : forall verbose l s o, heading_reading verbose l s o -> first_heading verbose (mkInput l s) = o.
Proof.
  intros verbose l s o H. unfold first_heading, stmt.
  destruct H as [s Hs|p ws Hp Hw|p c r Hp Hc|p ws t Hp Hn Hw Ht|p ws t c r Hp Hn Hw Ht Hc].
  - rewrite <- other_than_all in Hs. rewrite tw_all by assumption. destruct l; reflexivity.
  - rewrite <- other_than_all in Hp. rewrite tw_stop by auto. cbn [bind]. rewrite token_here. cbn [bind].
    destruct ws as [|c ws]; [rewrite tw1_empty; reflexivity|]. rewrite blank_all in Hw. rewrite tw1_all by (assumption || discriminate).
    destruct l; [cbn [bind]; rewrite tw1_empty; reflexivity|reflexivity].
  - rewrite <- other_than_all in Hp. rewrite tw_stop by auto. cbn [bind]. rewrite token_here. cbn [bind].
    apply not_blank in Hc. rewrite tw1_none by assumption. reflexivity.
  - rewrite <- other_than_all in Hp. rewrite tw_stop by auto. cbn [bind]. rewrite token_here. cbn [bind]. rewrite blank_all in Hw.
    destruct t as [|c t]; [contradiction|]. destruct Ht as [Hc Ht]. apply not_blank in Hc. rewrite line_all in Ht.
    rewrite tw1_stop by assumption. cbn [bind]. rewrite tw1_all by (assumption || discriminate). destruct l; reflexivity.
  - rewrite <- other_than_all in Hp. rewrite tw_stop by auto. cbn [bind]. rewrite token_here. cbn [bind]. rewrite blank_all in Hw.
    destruct t as [|d t]; [contradiction|]. destruct Ht as [Hd Ht]. apply not_blank in Hd. rewrite line_all in Ht.
    cbn [app]. rewrite tw1_stop by assumption. cbn [bind]. change (d :: t ++ c :: r) with ((d :: t) ++ c :: r).
    apply in_line_not in Hc. rewrite tw1_stop by (assumption || discriminate). reflexivity.
Qed.
Lemma heading_total : forall verbose l s, exists o, heading_reading verbose l s o.
Proof.
  intros verbose l s. destruct (split_while (other_than "#"%byte) s) as [H|(p & c & s' & -> & Hp & Hc)].
  - rewrite other_than_all in H. eexists. apply hr_none. assumption.
  - apply other_than_not in Hc. subst c. rewrite other_than_all in Hp.
    destruct (while_cases Ascii.is_whitespace s') as [->|[(c & y & -> & Hc)|[[Hs H]|(ws & c & y & -> & Hn & H & Hc)]]].
    + eexists. apply hr_blank; auto.
    + apply not_blank in Hc. eexists. apply hr_not; assumption.
    + apply blank_all in H. eexists. apply hr_blank; assumption.
    + apply blank_all in H. apply not_blank in Hc.
      assert (Hl : in_line c = true) by (apply in_line_spec; intro Hl; apply Hc, line_end_blank, Hl).
      destruct (split_while in_line y) as [Hy|(t & d & r & -> & Ht & Hd)].
      * eexists. apply hr_open; auto. split; [assumption|]. apply line_all. constructor; assumption.
      * eexists. apply (@hr_line verbose l p ws (c :: t) d r); auto; [|apply in_line_not; assumption].
        split; [assumption|]. apply line_all. constructor; assumption.
Qed.
Lemma heading_exact : forall verbose l s o, first_heading verbose (mkInput l s) = o <-> heading_reading verbose l s o.
Proof.
  intros verbose l s o. split; [|apply heading_reads]. intros <-. destruct (heading_total verbose l s) as [o H]. rewrite (heading_reads H). exact H.
Qed.

(** * [string] *)
Lemma same_bytes : forall w x, same_items byte_eqb w x <-> w = x.
Proof.
  intros w x. split.
  - intros H. induction H as [|a b w x Hab H IH]; [reflexivity|]. apply byte_eqb_eq in Hab. congruence.
  - intros <-. induction w; constructor; [apply byte_eqb_eq; reflexivity|assumption].
Qed.
Lemma difference_departs : forall w x n, first_difference byte_eqb w x n <-> departs w x n.
Proof.
  intros w x n. split.
  - intros (a & b & H1 & H2 & H3 & H4). apply nth_error_split in H1. destruct H1 as (p & v & -> & Hp). apply nth_error_split in H2. destruct H2 as (q & t & -> & Hq).
    assert (p = q) as <-.
    { clear H3. subst n. revert q Hq H4. induction p as [|c p IH]; intros [|d q] Hq H4; try discriminate; [reflexivity|].
      destruct (H4 0) as (c' & d' & E1 & E2 & E3); [cbn; lia|]. cbn in E1, E2. inversion E1; inversion E2; subst. apply byte_eqb_eq in E3. subst. f_equal.
      apply IH; [cbn in Hq; lia|]. intros k Hk. apply (H4 (S k)). cbn. lia. }
    exists p, a, b, v, t. repeat split; auto. intros ->. rewrite (proj2 (byte_eqb_eq b b) eq_refl) in H3. discriminate.
  - intros (p & a & b & v & t & Hp & -> & -> & Hab). exists a, b. subst n. rewrite !nth_error_app2, Nat.sub_diag by lia. repeat split; auto.
    + destruct (byte_eqb a b) eqn:Heq; [|reflexivity]. apply byte_eqb_eq in Heq. contradiction.
    + intros k Hk. rewrite !nth_error_app1 by lia. destruct (nth_error p k) as [c|] eqn:Hc; [|apply nth_error_None in Hc; lia].
      exists c, c. repeat split. apply byte_eqb_eq. reflexivity.
Qed.
Lemma departs_more : forall w x r n, departs w x n -> departs w (x ++ r) n.
Proof. intros w x r n (p & a & b & v & t & Hp & Hw & -> & Hab). exists p, a, b, v, (t ++ r). rewrite <- app_assoc. auto. Qed.
Lemma departs_not : forall w r n, ~ departs w (w ++ r) n.
Proof.
  intros w r n (p & a & b & v & t & Hp & -> & H & Hab). rewrite <- app_assoc in H. apply app_inv_head in H. inversion H. contradiction.
Qed.
Lemma departs_fun : forall w s n m, departs w s n -> departs w s m -> n = m.
Proof.
  intros w s n m (p & a & b & v & t & Hp & -> & -> & Hab) (q & a' & b' & v' & t' & Hq & H1 & H2 & Hab').
  subst n m. revert q H1 H2. induction p as [|c p IH]; intros [|d q] H1 H2; cbn in *; inversion H1; inversion H2; subst; try contradiction; auto.
Qed.
Lemma string_cases : forall verbose w l s,
  (length s < length w /\ string verbose byte_eqb w (mkInput l s) = Incomplete (length w - length s)) \/
  (exists r, s = w ++ r /\ string verbose byte_eqb w (mkInput l s) = Data (mkInput l r) w) \/
  (length w <= length s /\ exists n, departs w s n /\
    string verbose byte_eqb w (mkInput l s) = if verbose then Error s (EString w) else Error (skipn n s) EPlain).
Proof.
  intros verbose w l s. destruct (C07_string_total byte byte_eqb w s) as [H|[(x & r & -> & H)|(x & r & n & -> & H1 & H2)]].
  - left. split; [assumption|]. apply C07_string_short; lia.
  - right. left. exists r. rewrite (C07_string_match byte verbose byte_eqb w l x r H). apply same_bytes in H. subst. auto.
  - right. right. split; [rewrite app_length; lia|]. exists n. split; [|apply C07_string_mismatch; assumption].
    apply departs_more. apply difference_departs. assumption.
Qed.
Lemma string_departs : forall verbose w l s n, length w <= length s -> departs w s n ->
  string verbose byte_eqb w (mkInput l s) = if verbose then Error s (EString w) else Error (skipn n s) EPlain.
Proof.
  intros verbose w l s n Hl Hn. destruct (string_cases verbose w l s) as [[H _]|[(r & -> & _)|(_ & m & Hm & H)]].
  - lia.
  - exact (False_ind _ (@departs_not w r n Hn)).
  - rewrite (departs_fun Hn Hm). assumption.
Qed.
Lemma string_here : forall verbose w l r, string verbose byte_eqb w (mkInput l (w ++ r)) = Data (mkInput l r) w.
Proof. intros. apply C07_string_match. apply same_bytes. reflexivity. Qed.
(** A word which is not there fails, one way or the other. *)
Lemma string_fails : forall verbose w l s, (forall r, s <> w ++ r) -> length w <= length s ->
  exists b e, string verbose byte_eqb w (mkInput l s) = Error b e.
Proof.
  intros verbose w l s Hr Hl. destruct (string_cases verbose w l s) as [[H _]|[(r & -> & _)|(_ & m & Hm & ->)]].
  - lia.
  - destruct (Hr r eq_refl).
  - destruct verbose; eauto.
Qed.
Lemma string_lacks : forall verbose w l s, (forall r, s <> w ++ r) ->
  (exists b e, string verbose byte_eqb w (mkInput l s) = Error b e) \/ string verbose byte_eqb w (mkInput l s) = Incomplete (length w - length s).
Proof.
  intros verbose w l s Hr. destruct (string_cases verbose w l s) as [[H ->]|[(r & -> & _)|(_ & m & Hm & ->)]]; auto.
  - destruct (Hr r eq_refl).
  - left. destruct verbose; eauto.
Qed.

(** * The severity *)
Lemma or_error : forall T (p q : u8_parser T) i b e, p i = Error b e -> or_ p q i = q i.
Proof. intros T p q i b e H. unfold or_. rewrite H. reflexivity. Qed.
Lemma or_last : forall T (p q : u8_parser T) s, (exists b e, p (mkInput true s) = Error b e) \/ (exists n, p (mkInput true s) = Incomplete n) ->
  or_ p q (mkInput true s) = q (mkInput true s).
Proof. intros T p q s [(b & e & H)|[n H]]; unfold or_; rewrite H; reflexivity. Qed.
Lemma level_lacks : forall verbose w v s, (forall r, s <> w ++ r) ->
  (exists b e, level verbose w v (mkInput true s) = Error b e) \/ (exists n, level verbose w v (mkInput true s) = Incomplete n).
Proof.
  intros verbose w v s H. unfold level. destruct (@string_lacks verbose w true s H) as [(b & e & ->)| ->]; cbn [map]; eauto.
Qed.
Lemma not_a_word : forall s w v, ~ starts_with_severity s -> In (w, v) severities -> forall r, s <> w ++ r.
Proof. intros s w v H Hin r Hs. apply H. exists w, v, r. auto. Qed.

Lemma log_reads : forall verbose l s o, log_reading verbose l s o -> log_severity verbose (mkInput l s) = o.
Proof.
  intros verbose l s o H. destruct H as [w v r Hin Hl|s Hs Hl|s n Hs Hno Hn].
  - cbn in Hin. destruct Hin as [H|[H|[H|[H|[]]]]]; inversion H; subst; clear H.
    + unfold log_severity, or_ at 1, level at 1. rewrite string_here. reflexivity.
    + destruct r as [|c r]; [destruct Hl as [->|Hl]; [|cbn in Hl; lia]|]; destruct verbose; reflexivity.
    + destruct r as [|c r]; [destruct Hl as [->|Hl]; [|cbn in Hl; lia]|]; destruct verbose; reflexivity.
    + destruct verbose; reflexivity.
  - destruct l.
    + destruct Hl as [Hl|Hl]; [discriminate|]. unfold log_severity.
      rewrite or_last by (apply level_lacks; eapply not_a_word; [eassumption|left; reflexivity]).
      rewrite or_last by (apply level_lacks; eapply not_a_word; [eassumption|right; left; reflexivity]).
      rewrite or_last by (apply level_lacks; eapply not_a_word; [eassumption|right; right; left; reflexivity]).
      unfold level. fold last_word. rewrite (C07_string_short byte verbose byte_eqb last_word true s (5 - length s)) by (change (length last_word) with 5; lia). reflexivity.
    + unfold log_severity, or_ at 1, level at 1. rewrite (C07_string_short byte verbose byte_eqb ["E"; "R"; "R"; "O"; "R"]%byte false s (5 - length s)) by (cbn [length]; lia). reflexivity.
  - assert (F : forall w v, In (w, v) severities -> length w <= 5 -> exists b e, level verbose w v (mkInput l s) = Error b e).
    { intros w v Hin Hw. destruct (@string_fails verbose w l s) as (b & e & H); [eapply not_a_word; eassumption|lia|]. unfold level. rewrite H. cbn [map]. eauto. }
    unfold log_severity. destruct (F _ _ (or_introl eq_refl) ltac:(cbn; lia)) as (b1 & e1 & H1). erewrite or_error by exact H1.
    destruct (F _ _ (or_intror (or_introl eq_refl)) ltac:(cbn; lia)) as (b2 & e2 & H2). erewrite or_error by exact H2.
    destruct (F _ _ (or_intror (or_intror (or_introl eq_refl))) ltac:(cbn; lia)) as (b3 & e3 & H3). erewrite or_error by exact H3.
    unfold level. fold last_word. rewrite (@string_departs verbose last_word l s n) by (assumption || exact Hs). destruct verbose; reflexivity.
Qed.
Lemma prefix_dec : forall (w s : list byte), (exists r, s = w ++ r) \/ forall r, s <> w ++ r.
Proof.
  induction w as [|c w IH]; intros s; [left; exists s; reflexivity|]. destruct s as [|d s]; [right; discriminate|].
  destruct (byte_eqb c d) eqn:Hc.
  - apply byte_eqb_eq in Hc. subst d. destruct (IH s) as [[r ->]|H]; [left; exists r; reflexivity|]. right. intros r Hr. inversion Hr. eapply H; eassumption.
  - right. intros r Hr. inversion Hr. subst. rewrite (proj2 (byte_eqb_eq c c) eq_refl) in Hc. discriminate.
Qed.
Lemma severity_dec : forall s, starts_with_severity s \/ ~ starts_with_severity s.
Proof.
  intros s. assert (H : forall ws : list (list byte * log_t), (exists w v r, In (w, v) ws /\ s = w ++ r) \/ ~ (exists w v r, In (w, v) ws /\ s = w ++ r)).
  { induction ws as [|[w v] ws IH]; [right; intros (w & v & r & [] & _)|].
    destruct (prefix_dec w s) as [[r Hr]|Hr]; [left; exists w, v, r; split; [left; reflexivity|assumption]|].
    destruct IH as [(w' & v' & r & Hin & Hs)|IH]; [left; exists w', v', r; split; [right; assumption|assumption]|].
    right. intros (w' & v' & r & [Hin|Hin] & Hs); [inversion Hin; subst; eapply Hr; reflexivity|]. apply IH. eauto. }
  apply H.
Qed.
Lemma log_total : forall verbose l s, exists o, log_reading verbose l s o.
Proof.
  intros verbose l s. destruct (le_lt_dec 5 (length s)) as [Hs|Hs].
  - destruct (severity_dec s) as [(w & v & r & Hin & ->)|Hno]; [eexists; apply lr_word; [eassumption|auto]|].
    destruct (string_cases verbose last_word l s) as [[H _]|[(r & Hr & _)|(_ & n & Hn & _)]].
    + cbn in H. lia.
    + destruct Hno. exists last_word, LogDebug, r. split; [right; right; right; left; reflexivity|assumption].
    + eexists. eapply lr_other; eassumption.
  - destruct l; [|eexists; apply lr_short; auto]. destruct (severity_dec s) as [(w & v & r & Hin & ->)|Hno]; [eexists; apply lr_word; [eassumption|auto]|].
    eexists; apply lr_short; auto.
Qed.
Lemma log_exact : forall verbose l s o, log_severity verbose (mkInput l s) = o <-> log_reading verbose l s o.
Proof.
  intros verbose l s o. split; [|apply log_reads]. intros <-. destruct (log_total verbose l s) as [o H]. rewrite (log_reads H). exact H.
Qed.

(** * The missiles *)
Lemma zero_to_nine_spec : forall c, zero_to_nine c = true <-> a_digit c.
Proof. intros c. unfold a_digit. destruct c; vm_compute; split; congruence. Qed.
Lemma read_digit_here : forall verbose checked l c x r, digit_value c = Some x -> read_digit verbose checked (mkInput l (c :: r)) = Data (mkInput l r) x.
Proof.
  intros verbose checked l c x r H. unfold read_digit. assert (Hc : zero_to_nine c = true) by (apply zero_to_nine_spec; unfold a_digit; congruence).
  rewrite (proj1 (proj2 (C03_satisfy byte verbose zero_to_nine l c r)) Hc).
  assert (Hz : int_result u8 checked (Z.of_N (Ascii.code c) - Z.of_N (Ascii.code "0"%byte)) = Some x).
  { revert H. destruct c; intros H; try discriminate; inversion H; reflexivity. }
  rewrite Hz. reflexivity.
Qed.
Lemma read_digit_not : forall verbose checked l c r, ~ a_digit c -> read_digit verbose checked (mkInput l (c :: r)) = Error (c :: r) (unexpected verbose).
Proof.
  intros verbose checked l c r H. unfold read_digit. assert (Hc : zero_to_nine c = false) by (destruct (zero_to_nine c) eqn:Hc; [apply zero_to_nine_spec in Hc; contradiction|reflexivity]).
  rewrite (proj2 (proj2 (C03_satisfy byte verbose zero_to_nine l c r)) Hc). reflexivity.
Qed.
Lemma digit_small : forall c x, digit_value c = Some x -> (0 <= x <= 9)%Z.
Proof. intros c x H. destruct c; inversion H; subst; lia. Qed.
Lemma digit_has_value : forall c, a_digit c -> exists x, digit_value c = Some x.
Proof. intros c H. unfold a_digit in H. destruct (digit_value c); [eauto|contradiction]. Qed.
Lemma sum_fits : forall checked x y, (0 <= x <= 9)%Z -> (0 <= y <= 9)%Z -> int_result u8 checked (x + y) = Some (x + y)%Z.
Proof.
  intros checked x y Hx Hy. unfold int_result. change (int_min u8) with 0%Z. change (int_max u8) with 255%Z.
  rewrite (proj2 (Z.leb_le _ _)), (proj2 (Z.leb_le _ _)) by lia. reflexivity.
Qed.
Lemma launch_reads : forall verbose checked l s o, launch_reading verbose l s o -> launch verbose checked (mkInput l s) = o.
Proof.
  intros verbose checked l s o H. unfold launch, stmt.
  destruct H as [|c r Hc|c Hc|c d r Hc Hd|c d s Hc Hd Hs|c d s n Hc Hd Hs Hn|c d x y r Hc Hd].
  - reflexivity.
  - rewrite read_digit_not by assumption. reflexivity.
  - destruct (digit_has_value Hc) as [x Hx]. erewrite read_digit_here by eassumption. reflexivity.
  - destruct (digit_has_value Hc) as [x Hx]. erewrite read_digit_here by eassumption. cbn [bind]. rewrite read_digit_not by assumption. reflexivity.
  - destruct (digit_has_value Hc) as [x Hx], (digit_has_value Hd) as [y Hy]. erewrite read_digit_here by eassumption. cbn [bind].
    erewrite read_digit_here by eassumption. cbn [bind]. change ["m"; "i"; "s"; "s"; "i"; "l"; "e"; "s"]%byte with missiles.
    rewrite (C07_string_short byte verbose byte_eqb missiles l s (length missiles - length s)) by lia. reflexivity.
  - destruct (digit_has_value Hc) as [x Hx], (digit_has_value Hd) as [y Hy]. erewrite read_digit_here by eassumption. cbn [bind].
    erewrite read_digit_here by eassumption. cbn [bind]. change ["m"; "i"; "s"; "s"; "i"; "l"; "e"; "s"]%byte with missiles.
    rewrite (@string_departs verbose missiles l s n) by assumption. destruct verbose; reflexivity.
  - erewrite read_digit_here by eassumption. cbn [bind]. erewrite read_digit_here by eassumption. cbn [bind].
    change ["m"; "i"; "s"; "s"; "i"; "l"; "e"; "s"]%byte with missiles. rewrite string_here. cbn [bind].
    rewrite sum_fits by (eapply digit_small; eassumption). reflexivity.
Qed.
Lemma launch_total : forall verbose l s, exists o, launch_reading verbose l s o.
Proof.
  assert (D : forall c, a_digit c \/ ~ a_digit c).
  { intros c. destruct (zero_to_nine c) eqn:H; [left; apply zero_to_nine_spec; assumption|]. right. intros H'. apply zero_to_nine_spec in H'. congruence. }
  intros verbose l [|c [|d s]].
  - eexists; constructor.
  - destruct (D c); eexists; [apply la_one|apply la_no_digit]; assumption.
  - destruct (D c) as [Hc|Hc]; [|eexists; apply la_no_digit; assumption]. destruct (D d) as [Hd|Hd]; [|eexists; apply la_one_digit; assumption].
    destruct (string_cases verbose missiles l s) as [[H _]|[(r & -> & _)|(Hs & n & Hn & _)]].
    + eexists. apply la_short; assumption.
    + destruct (digit_has_value Hc) as [x Hx], (digit_has_value Hd) as [y Hy]. eexists. apply la_fire; eassumption.
    + eexists. eapply la_other; eassumption.
Qed.
Lemma launch_exact : forall verbose checked l s o, launch verbose checked (mkInput l s) = o <-> launch_reading verbose l s o.
Proof.
  intros verbose checked l s o. split; [|apply launch_reads]. intros <-. destruct (launch_total verbose l s) as [o H]. rewrite (launch_reads checked H). exact H.
Qed.

(** * The address *)
Lemma u8_admits : admits_u8 u8.
Proof. unfold admits_u8. cbn. lia. Qed.
Lemma dot_no_digit : ~ a_digit "."%byte.
Proof. unfold a_digit. cbn. congruence. Qed.
Lemma semicolon_no_digit : ~ a_digit ";"%byte.
Proof. unfold a_digit. cbn. congruence. Qed.
Lemma number_positive : forall ds, (0 <= number ds)%Z.
Proof.
  induction ds as [|c ds IH]; cbn; [lia|]. destruct (digit_value c) as [d|] eqn:Hd; [|lia]. apply digit_small in Hd.
  assert (0 <= 10 ^ Z.of_nat (length ds))%Z by (apply Z.pow_nonneg; lia). nia.
Qed.

(** The value of an octet: none if the program panics. *)
Definition octet_value (checked : bool) (ds : list byte) : option Z :=
  if (number ds <=? 255)%Z then Some (number ds) else if checked then None else Some (number ds mod 256)%Z.
Lemma decimal_octet : forall verbose checked l ds rest, octet ds -> ends_number l rest ->
  decimal verbose checked u8 (mkInput l (ds ++ rest)) = match octet_value checked ds with Some v => Data (mkInput l rest) v | None => Panic end.
Proof.
  intros verbose checked l ds rest [Hd Hds] Hr. unfold octet_value. destruct (number ds <=? 255)%Z eqn:Hn.
  - apply Z.leb_le in Hn. apply C23_fits; auto using u8_admits.
  - apply Z.leb_gt in Hn. destruct checked; [apply C23_overflow_debug; auto using u8_admits|].
    destruct (C23_overflow_release verbose u8 l ds rest u8_admits Hd Hds Hr) as (v & -> & Hv). f_equal. unfold reduced in Hv.
    change (int_min u8) with 0%Z in Hv. change (int_max u8) with 255%Z in Hv. change (2 ^ width u8)%Z with 256%Z in Hv. destruct Hv as [Hv <-].
    symmetry. apply Z.mod_small. lia.
Qed.
Lemma decimal_inv : forall verbose checked l s,
  (exists ds rest, s = ds ++ rest /\ octet ds /\ ends_number l rest) \/
  (exists n, decimal verbose checked u8 (mkInput l s) = Incomplete n) \/ (exists e, decimal verbose checked u8 (mkInput l s) = Error s e).
Proof.
  intros verbose checked l s. destruct (C23_total l s) as [H|(ds & rest & -> & H1 & H2 & H3)].
  - right. rewrite (C23_no_number verbose checked u8 l s H). destruct s as [|c s]; [eauto|]. destruct (is_digit c); eauto.
  - left. exists ds, rest. repeat split; assumption.
Qed.
Lemma dotted_octet : forall verbose checked l ds rest, octet ds ->
  skipping (decimal verbose checked u8) (token verbose byte_eqb "."%byte) (mkInput l (ds ++ "."%byte :: rest)) =
  match octet_value checked ds with Some v => Data (mkInput l rest) v | None => Panic end.
Proof.
  intros verbose checked l ds rest Hds. unfold skipping, stmt. rewrite decimal_octet; [|assumption|apply dot_no_digit].
  destruct (octet_value checked ds); [|reflexivity]. cbn [bind]. rewrite token_here. reflexivity.
Qed.
Lemma dotted_inv : forall verbose checked l s,
  let r := skipping (decimal verbose checked u8) (token verbose byte_eqb "."%byte) (mkInput l s) in
  (exists ds rest, s = ds ++ "."%byte :: rest /\ octet ds) \/
  (exists ds rest, s = ds ++ rest /\ octet ds /\ ends_number l rest /\ octet_value checked ds = None /\ r = Panic) \/
  (exists n, r = Incomplete n) \/ (exists b e, r = Error b e).
Proof.
  intros verbose checked l s. cbv zeta. unfold skipping, stmt.
  destruct (decimal_inv verbose checked l s) as [(ds & rest & -> & H1 & H2)|[[n ->]|[e ->]]]; [|cbn; eauto 8..].
  rewrite decimal_octet by assumption. destruct (octet_value checked ds) as [v|] eqn:Hv; cbn [bind].
  - destruct rest as [|c rest]; [cbn; eauto 8|]. destruct (byte_eqb "."%byte c) eqn:Hc.
    + apply byte_eqb_eq in Hc. subst c. left. eauto.
    + rewrite (@token_not verbose l "."%byte c rest); [cbn; eauto 8|]. intros <-. discriminate.
  - right. left. exists ds, rest. repeat split; auto; apply H1.
Qed.

Lemma octet_same : forall l ds ds' r r', octet ds -> octet ds' -> ends_number l r -> ends_number l r' -> ds ++ r = ds' ++ r' -> ds = ds' /\ r = r'.
Proof.
  intros l ds ds' r r' [_ H1] [_ H2] Hr Hr'. revert ds' H2. induction H1 as [|c ds Hc H1 IH]; intros ds' H2 H.
  - destruct H2 as [|d ds' Hd H2]; [auto|]. cbn in H. subst r. contradiction.
  - destruct H2 as [|d ds' Hd H2]; cbn in H; [subst r'; contradiction|]. inversion H. destruct (IH ds' H2 H4). subst. auto.
Qed.

Definition ip_word : list byte := ["i"; "p"; ":"]%byte.
Lemma address_shape : forall d1 d2 d3 d4 r,
  address d1 d2 d3 d4 ++ r = ip_word ++ d1 ++ "."%byte :: d2 ++ "."%byte :: d3 ++ "."%byte :: d4 ++ ";"%byte :: r.
Proof. intros. unfold address, dotted, ip_word. cbn [List.map concat app]. rewrite <- !app_assoc. cbn [app]. rewrite <- ?app_assoc. reflexivity. Qed.

Lemma ip_data : forall verbose checked l d1 d2 d3 d4 r v1 v2 v3 v4, octet d1 -> octet d2 -> octet d3 -> octet d4 ->
  octet_value checked d1 = Some v1 -> octet_value checked d2 = Some v2 -> octet_value checked d3 = Some v3 -> octet_value checked d4 = Some v4 ->
  parse_ip verbose checked (mkInput l (address d1 d2 d3 d4 ++ r)) = Data (mkInput l r) (v1, v2, v3, v4).
Proof.
  intros verbose checked l d1 d2 d3 d4 r v1 v2 v3 v4 H1 H2 H3 H4 V1 V2 V3 V4. rewrite address_shape. unfold parse_ip, stmt. fold ip_word.
  rewrite string_here. cbn [bind]. rewrite dotted_octet, V1 by assumption. cbn [bind]. rewrite dotted_octet, V2 by assumption. cbn [bind].
  rewrite dotted_octet, V3 by assumption. cbn [bind]. rewrite decimal_octet, V4; [|assumption|exact semicolon_no_digit]. cbn [bind]. rewrite token_here. reflexivity.
Qed.

Lemma bind_data : forall T U (i : input byte) (v : T) (f : input byte -> T -> pres byte U (error byte)), bind (fun e => e) (Data i v) f = f i v.
Proof. intros. cbn. destruct (f i v); reflexivity. Qed.

(** What the steps of the program can come to, after octets which have values. *)
Lemma ip_cases : forall verbose checked l s,
  (exists d1 d2 d3 d4 v1 v2 v3 v4 r, s = address d1 d2 d3 d4 ++ r /\ octet d1 /\ octet d2 /\ octet d3 /\ octet d4 /\
    octet_value checked d1 = Some v1 /\ octet_value checked d2 = Some v2 /\ octet_value checked d3 = Some v3 /\ octet_value checked d4 = Some v4) \/
  (exists gs d rest, s = ip_word ++ dotted gs ++ d ++ rest /\ length gs <= 3 /\ Forall octet gs /\ Forall (fun g => octet_value checked g <> None) gs /\
    octet d /\ octet_value checked d = None /\ ends_number l rest /\ parse_ip verbose checked (mkInput l s) = Panic) \/
  (exists n, parse_ip verbose checked (mkInput l s) = Incomplete n) \/ (exists b e, parse_ip verbose checked (mkInput l s) = Error b e).
Proof.
  intros verbose checked l s. unfold parse_ip, stmt. fold ip_word.
  destruct (string_cases verbose ip_word l s) as [[_ ->]|[(s0 & -> & ->)|(_ & n & _ & ->)]]; [cbn; eauto 8| |destruct verbose; cbn; eauto 8].
  rewrite bind_data.
  assert (P : forall gs s1, s0 = dotted gs ++ s1 -> length gs < 3 -> Forall octet gs -> Forall (fun g => octet_value checked g <> None) gs ->
     forall (T : Type) (k : Z -> u8_parser T), let r := bind (fun e => e) (skipping (decimal verbose checked u8) (token verbose byte_eqb "."%byte) (mkInput l s1)) (fun i t => k t i) in
     (exists d v s2, s0 = dotted (gs ++ [d]) ++ s2 /\ octet d /\ octet_value checked d = Some v /\ r = k v (mkInput l s2)) \/
     (exists d rest, s1 = d ++ rest /\ octet d /\ ends_number l rest /\ octet_value checked d = None /\ r = Panic) \/
     (exists n, r = Incomplete n) \/ (exists b e, r = Error b e)).
  { intros gs s1 Hs Hl Hg Hv T k. cbv zeta.
    destruct (dotted_inv verbose checked l s1) as [(d & rest & -> & Hd)|[(d & rest & -> & Hd & He & Hn & ->)|[[n ->]|(b & e & ->)]]]; [|cbn [bind]; eauto 14..].
    destruct (octet_value checked d) as [v|] eqn:Hd'.
    - left. exists d, v, rest. rewrite dotted_octet, Hd' by assumption. cbn [bind]. repeat split; auto; try apply Hd; [|destruct (k v _); reflexivity].
      rewrite Hs. unfold dotted. rewrite map_app, concat_app. cbn [List.map concat]. rewrite app_nil_r, <- !app_assoc. reflexivity.
    - right. left. exists d, ("."%byte :: rest). rewrite dotted_octet, Hd' by assumption. repeat split; auto; try apply Hd. exact dot_no_digit. }
  assert (F : forall gs s1 d rest, s0 = dotted gs ++ s1 -> s1 = d ++ rest -> s0 = dotted gs ++ d ++ rest) by (intros; subst; reflexivity).
  destruct (P [] s0 eq_refl (Nat.lt_0_succ 2) (Forall_nil _) (Forall_nil _) _
     (fun a i => bind (fun e => e) (skipping (decimal verbose checked u8) (token verbose byte_eqb "."%byte) i) (fun i b =>
        bind (fun e => e) (skipping (decimal verbose checked u8) (token verbose byte_eqb "."%byte) i) (fun i c =>
        bind (fun e => e) (decimal verbose checked u8 i) (fun i d => bind (fun e => e) (token verbose byte_eqb ";"%byte i) (fun i _ => ret (a, b, c, d) i))))))
    as [(d1 & v1 & s1 & E1 & H1 & V1 & R1)|[(d & rest & E1 & H1 & H2 & V1 & R1)|[[n R1]|(b & e & R1)]]].
  2:{ right. left. exists [], d, rest. cbv zeta in R1. subst s0. repeat split; auto; try apply H1; cbn; lia. }
  2:{ right. right. left. exists n. exact R1. }
  2:{ right. right. right. exists b, e. exact R1. }
  cbv zeta in R1. rewrite R1. clear R1. cbn [app] in E1.
  assert (N1 : octet_value checked d1 <> None) by congruence.
  destruct (P [d1] s1 E1 ltac:(cbn; lia) ltac:(auto) ltac:(auto) _
     (fun b i => bind (fun e => e) (skipping (decimal verbose checked u8) (token verbose byte_eqb "."%byte) i) (fun i c =>
        bind (fun e => e) (decimal verbose checked u8 i) (fun i d => bind (fun e => e) (token verbose byte_eqb ";"%byte i) (fun i _ => ret (v1, b, c, d) i)))))
    as [(d2 & v2 & s2 & E2 & H2 & V2 & R2)|[(d & rest & E2 & H2 & H3 & V2 & R2)|[[n R2]|(b & e & R2)]]].
  2:{ right. left. exists [d1], d, rest. cbv zeta in R2. rewrite (F _ _ _ _ E1 E2). repeat split; auto; try apply H2; cbn; lia. }
  2:{ right. right. left. exists n. exact R2. }
  2:{ right. right. right. exists b, e. exact R2. }
  cbv zeta in R2. rewrite R2. clear R2. cbn [app] in E2.
  assert (N2 : octet_value checked d2 <> None) by congruence.
  destruct (P [d1; d2] s2 E2 ltac:(cbn; lia) ltac:(auto) ltac:(auto) _
     (fun c i => bind (fun e => e) (decimal verbose checked u8 i) (fun i d => bind (fun e => e) (token verbose byte_eqb ";"%byte i) (fun i _ => ret (v1, v2, c, d) i))))
    as [(d3 & v3 & s3 & E3 & H3 & V3 & R3)|[(d & rest & E3 & H3 & H4 & V3 & R3)|[[n R3]|(b & e & R3)]]].
  2:{ right. left. exists [d1; d2], d, rest. cbv zeta in R3. rewrite (F _ _ _ _ E2 E3). repeat split; auto; try apply H3; cbn; lia. }
  2:{ right. right. left. exists n. exact R3. }
  2:{ right. right. right. exists b, e. exact R3. }
  cbv zeta in R3. rewrite R3. clear R3. cbn [app] in E3.
  assert (N3 : octet_value checked d3 <> None) by congruence.
  destruct (decimal_inv verbose checked l s3) as [(d4 & rest & -> & H4 & H5)|[[n ->]|[e ->]]]; [|cbn [bind]; eauto 8..].
  rewrite decimal_octet by assumption. destruct (octet_value checked d4) as [v4|] eqn:V4; [rewrite bind_data|cbn [bind]].
  - destruct rest as [|c rest]; [cbn; eauto 8|]. destruct (byte_eqb ";"%byte c) eqn:Hc.
    + apply byte_eqb_eq in Hc. subst c. left. exists d1, d2, d3, d4, v1, v2, v3, v4, rest. repeat split; auto; try apply H1; try apply H2; try apply H3; try apply H4.
      rewrite address_shape, E3. unfold dotted. cbn [List.map concat app]. rewrite <- !app_assoc. reflexivity.
    + rewrite (@token_not verbose l ";"%byte c rest); [cbn; eauto 8|]. intros <-. discriminate.
  - right. left. exists [d1; d2; d3], d4, rest. rewrite E3. repeat split; auto; try apply H4; cbn; lia.
Qed.
