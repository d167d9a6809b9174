(** Proofs about buffers and streams over two item types. *)
From Coq Require Import List Bool Arith Lia.
From Verif Require Import Base Parsers Combinators Buffer Stream SpecBase SpecStream SpecOpaque OpaqueProofs.
Import ListNotations.

Set Implicit Arguments.

Lemma run_bind_rel : forall A B C D (R : A -> B -> Prop) (Q : C -> D -> Prop) x y f g, same_run R x y ->
  (forall a b, R a b -> same_run Q (f a) (g b)) -> same_run Q (run_bind x f) (run_bind y g).
Proof. intros A B C D R Q x y f g H Hf. destruct x, y; simpl in *; try contradiction; auto. Qed.
Lemma same_run_eq : forall A (x : run A), same_run eq x x.
Proof. intros A x. destruct x; simpl; auto. Qed.

(** * Memory *)

Section Memory.
  Context {I J : Type}.
  Variable RI : I -> J -> Prop.

  Lemma expose_rel : forall m n, memory_rel RI m n -> same_run (Forall2 RI) (expose m) (expose n).
  Proof.
    induction 1 as [|a b m n Hab H IH]; simpl; [constructor|]. destruct a as [a|], b as [b|]; simpl in *; try contradiction; auto.
    apply run_bind_rel with (R := Forall2 RI); auto. intros l k Hlk. simpl. constructor; auto.
  Qed.
  Lemma overwrite_rel : forall w w', memory_rel RI w w' -> forall m n, memory_rel RI m n -> memory_rel RI (overwrite w m) (overwrite w' n).
  Proof.
    induction 1 as [|a b w w' Hab H IH]; intros m n Hmn; simpl; [destruct Hmn; constructor; assumption|].
    destruct a as [a|], b as [b|]; simpl in *; try contradiction; destruct Hmn; try constructor; try assumption; apply IH; assumption.
  Qed.
  Lemma memory_app : forall m n m' n', memory_rel RI m n -> memory_rel RI m' n' -> memory_rel RI (m ++ m') (n ++ n').
  Proof. intros. apply f2_app; assumption. Qed.
  Lemma memory_firstn : forall k m n, memory_rel RI m n -> memory_rel RI (firstn k m) (firstn k n).
  Proof. intros. apply f2_firstn; assumption. Qed.
  Lemma memory_skipn : forall k m n, memory_rel RI m n -> memory_rel RI (skipn k m) (skipn k n).
  Proof. intros. apply f2_skipn; assumption. Qed.
  Lemma memory_none : forall k, memory_rel RI (repeat None k) (repeat None k).
  Proof. intros. apply f2_repeat. exact Logic.I. Qed.
  Lemma memory_length : forall m n, memory_rel RI m n -> length m = length n.
  Proof. intros m n H. exact (f2_length H). Qed.
  Lemma copy_down_rel : forall m n, memory_rel RI m n -> forall f k, same_run (memory_rel RI) (copy_down m f k) (copy_down n f k).
  Proof.
    intros m n H f k. unfold copy_down. rewrite (memory_length H). destruct (_ <=? _); simpl; auto.
    apply memory_app; [apply memory_firstn|]; apply memory_skipn; assumption.
  Qed.

  (** * The two buffers *)

  Lemma fixed_ops_rel : buffer_rel RI (fixed_rel RI) (fixed_ops I) (fixed_ops J).
  Proof.
    unfold buffer_rel; cbn [fixed_ops op_deref op_fill op_request_space op_consume op_len op_capacity].
    repeat split; intros b c (Hm & Hp & Hu).
    - unfold fixed_deref. rewrite Hp, Hu, (memory_length Hm). apply run_bind_rel with (R := eq); [apply same_run_eq|]. intros _ _ _.
      apply expose_rel. apply memory_firstn, memory_skipn, Hm.
    - intros St St' RS d1 d2 Hd s s' Hs. unfold fixed_fill. rewrite Hp, Hu, (memory_length Hm). apply run_bind_rel with (R := eq); [apply same_run_eq|].
      intros _ _ _. specialize (Hd s s' Hs (length (f_mem c) - f_populated c)).
      destruct (ds_read d1 s _) as [[t w] r], (ds_read d2 s' _) as [[t' w'] r'], Hd as (Ht & Hw & ->).
      assert (HM : memory_rel RI (firstn (f_populated c) (f_mem b) ++ overwrite w (skipn (f_populated c) (f_mem b)))
        (firstn (f_populated c) (f_mem c) ++ overwrite w' (skipn (f_populated c) (f_mem c)))).
      { apply memory_app; [apply memory_firstn, Hm|]. apply overwrite_rel; [exact Hw|]. apply memory_skipn, Hm. }
      destruct r' as [n|e]; [|repeat split; simpl; auto]. rewrite (memory_length HM). apply run_bind_rel with (R := eq); [apply same_run_eq|].
      intros _ _ _. repeat split; simpl; auto.
    - intros n. unfold fixed_request_space. rewrite Hp, Hu, (memory_length Hm). apply run_bind_rel with (R := eq); [apply same_run_eq|]. intros _ _ _.
      apply run_bind_rel with (R := eq); [apply same_run_eq|]. intros room _ <-. destruct (room <? n); [|repeat split; simpl; auto].
      apply run_bind_rel with (R := eq); [apply same_run_eq|]. intros k _ <-.
      apply run_bind_rel with (R := memory_rel RI); [apply copy_down_rel, Hm|]. intros m m' HM. repeat split; simpl; auto.
    - intros n. unfold fixed_consume. rewrite Hp, Hu. apply run_bind_rel with (R := eq); [apply same_run_eq|]. intros _ _ _. repeat split; simpl; auto.
    - unfold fixed_len. rewrite Hp, Hu. apply same_run_eq.
    - unfold fixed_capacity. apply (memory_length Hm).
  Qed.

  Lemma growing_ops_rel : buffer_rel RI (growing_rel RI) (growing_ops I) (growing_ops J).
  Proof.
    unfold buffer_rel; cbn [growing_ops op_deref op_fill op_request_space op_consume op_len op_capacity].
    repeat split; intros b c HR; pose proof HR as (Hm & Hc & Hp & Hl & Hu & Ha & Hn).
    - unfold growing_deref. rewrite Hp, Hu, (memory_length Hm). apply run_bind_rel with (R := eq); [apply same_run_eq|]. intros _ _ _.
      apply expose_rel. apply memory_firstn, memory_skipn, Hm.
    - intros St St' RS d1 d2 Hd s s' Hs. unfold growing_fill. rewrite Hp, Hu, (memory_length Hm). apply run_bind_rel with (R := eq); [apply same_run_eq|].
      intros _ _ _. specialize (Hd s s' Hs (length (g_mem c) - g_populated c)).
      destruct (ds_read d1 s _) as [[t w] r], (ds_read d2 s' _) as [[t' w'] r'], Hd as (Ht & Hw & ->).
      assert (HM : memory_rel RI (firstn (g_populated c) (g_mem b) ++ overwrite w (skipn (g_populated c) (g_mem b)))
        (firstn (g_populated c) (g_mem c) ++ overwrite w' (skipn (g_populated c) (g_mem c)))).
      { apply memory_app; [apply memory_firstn, Hm|]. apply overwrite_rel; [exact Hw|]. apply memory_skipn, Hm. }
      destruct r' as [n|e]; [|repeat split; simpl; auto]. rewrite (memory_length HM). apply run_bind_rel with (R := eq); [apply same_run_eq|].
      intros _ _ _. repeat split; simpl; auto.
    - intros n. unfold growing_request_space. rewrite Hl, Hc. destruct (negb _ && _); [exact HR|].
      apply run_bind_rel with (R := eq); [unfold growing_len; rewrite Hp, Hu; apply same_run_eq|]. intros l _ <-.
      assert (HG : growing_rel RI (if g_cap c <? n + l then growing_set_len (growing_reserve b n) else b)
        (if g_cap c <? n + l then growing_set_len (growing_reserve c n) else c)).
      { destruct (g_cap c <? n + l); [|exact HR]. unfold growing_reserve. rewrite Hc, (memory_length Hm), Hn, Ha.
        destruct (n <=? _); unfold growing_set_len; simpl; rewrite ?Hc, ?(memory_length Hm);
          (split; [simpl; apply memory_app; [exact Hm|apply memory_none]|]); simpl; repeat split; auto. }
      revert HG. generalize (if g_cap c <? n + l then growing_set_len (growing_reserve b n) else b).
      generalize (if g_cap c <? n + l then growing_set_len (growing_reserve c n) else c). intros c' b' HR'.
      pose proof HR' as (Hm' & Hc' & Hp' & Hl' & Hu' & Ha' & Hn'). cbn zeta. rewrite Hp', Hu', (memory_length Hm').
      apply run_bind_rel with (R := eq); [apply same_run_eq|]. intros room _ <-. destruct (room <? n); [|exact HR'].
      apply run_bind_rel with (R := eq); [apply same_run_eq|]. intros k _ <-.
      apply run_bind_rel with (R := memory_rel RI); [apply copy_down_rel, Hm'|]. intros m m' HM. repeat split; simpl; auto.
    - intros n. unfold growing_consume. rewrite Hp, Hu. apply run_bind_rel with (R := eq); [apply same_run_eq|]. intros _ _ _. repeat split; simpl; auto.
    - unfold growing_len. rewrite Hp, Hu. apply same_run_eq.
    - unfold growing_capacity. apply (memory_length Hm).
  Qed.

  Lemma fixed_new_rel : forall n, same_run (fixed_rel RI) (fixed_with_size n) (fixed_with_size n).
  Proof. intros n. unfold fixed_with_size. destruct (0 <? n); simpl; auto. split; [apply memory_none|]. auto. Qed.
  Lemma growing_new_rel : forall cap0 alloc limit, growing_rel RI (growing_with_limit cap0 alloc limit) (growing_with_limit cap0 alloc limit).
  Proof. intros. repeat split; simpl; auto. constructor. Qed.

  (** Iterators as sources. *)
  Lemma iter_source_rel : forall It It' (R : It -> It' -> Prop) next next',
    (forall s s', R s s' -> opt_rel RI (fst (next s)) (fst (next' s')) /\ R (snd (next s)) (snd (next' s'))) ->
    source_rel RI R (iter_data_source next) (iter_data_source next').
  Proof.
    intros It It' R next next' Hn s s' Hs k. unfold iter_data_source. cbn [ds_read].
    assert (H : forall k s s', R s s' -> R (fst (fst (iter_read next k s))) (fst (fst (iter_read next' k s'))) /\
      memory_rel RI (snd (fst (iter_read next k s))) (snd (fst (iter_read next' k s'))) /\ snd (iter_read next k s) = snd (iter_read next' k s')).
    { clear - Hn. induction k as [|k IH]; intros s s' Hs; simpl; [repeat split; auto; constructor|].
      destruct (Hn s s' Hs) as [H1 H2]. destruct (next s) as [[a|] t], (next' s') as [[b|] t']; simpl in *; try contradiction; [|repeat split; auto; constructor].
      destruct (IH t t' H2) as (H3 & H4 & H5). destruct (iter_read next k t) as [[x w] n], (iter_read next' k t') as [[x' w'] n']; simpl in *.
      subst. repeat split; auto. constructor; auto. }
    destruct (H k s s' Hs) as (H1 & H2 & H3). destruct (iter_read next k s) as [[x w] n], (iter_read next' k s') as [[x' w'] n']; simpl in *.
    subst. auto.
  Qed.
End Memory.

(** * Source *)

Section Source.
  Context {I J St St' B B' : Type}.
  Variable RI : I -> J -> Prop.
  Variable RS : St -> St' -> Prop.
  Variable RB : B -> B' -> Prop.
  Variable d1 : data_source St I.
  Variable d2 : data_source St' J.
  Variable o1 : buffer_ops I B.
  Variable o2 : buffer_ops J B'.
  Hypothesis Hd : source_rel RI RS d1 d2.
  Hypothesis Ho : buffer_rel RI RB o1 o2.

  Let Hderef := proj1 Ho.
  Let Hfill := proj1 (proj2 Ho).
  Let Hspace := proj1 (proj2 (proj2 Ho)).
  Let Hconsume := proj1 (proj2 (proj2 (proj2 Ho))).
  Let Hlen := proj1 (proj2 (proj2 (proj2 (proj2 Ho)))).
  Let Hcap := proj2 (proj2 (proj2 (proj2 (proj2 Ho)))).
  Let R := src_rel RS RB.

  Lemma src_rel_with : forall x y, R x y -> forall b c, RB b c -> forall s s', RS s s' -> R (src_with x b s) (src_with y c s').
  Proof. intros x y (H1 & H2 & H3 & H4 & H5 & H6) b c Hb s s' Hs. repeat split; simpl; auto. Qed.

  Lemma fill_loop_rel : forall fuel req n b c, RB b c -> forall s s', RS s s' ->
    same_run (prod_rel (prod_rel RB RS) eq) (fill_loop d1 o1 fuel req n b s) (fill_loop d2 o2 fuel req n c s').
  Proof.
    induction fuel as [|fuel IH]; intros req n b c Hb s s' Hs; simpl; auto.
    apply run_bind_rel with (R := eq); [apply Hlen, Hb|]. intros l _ <-. destruct (l <? req); [|repeat split; simpl; auto].
    apply run_bind_rel with (R := prod_rel (prod_rel RB RS) eq); [apply Hfill; assumption|].
    intros [[b' t] r] [[c' t'] r'] ((Hb' & Ht) & Hr). simpl in Hb', Ht, Hr. subst r'. destruct r as [[|k]|e];
      [split; [split|]; simpl; auto|apply IH; assumption|split; [split|]; simpl; auto].
  Qed.

  Lemma fill_requested_rel : forall n x y, R x y -> same_run (prod_rel R eq) (fill_requested d1 o1 n x) (fill_requested d2 o2 n y).
  Proof.
    intros n x y Hxy. pose proof Hxy as (H1 & H2 & H3 & H4 & H5 & H6). unfold fill_requested.
    apply run_bind_rel with (R := eq); [apply Hlen, H2|]. intros l _ <-. destruct (l <? n); [|split; simpl; auto].
    apply run_bind_rel with (R := eq); [apply same_run_eq|]. intros diff _ <-.
    apply run_bind_rel with (R := RB); [apply Hspace, H2|]. intros b c Hb.
    apply run_bind_rel with (R := prod_rel (prod_rel RB RS) eq); [apply fill_loop_rel; assumption|].
    intros [[b' t] r] [[c' t'] r'] ((Hb' & Ht) & Hr). simpl in Hb', Ht, Hr. split; simpl; [apply src_rel_with; assumption|assumption].
  Qed.

  Lemma src_fill_rel : forall x y, R x y -> same_run (prod_rel R eq) (src_fill d1 o1 x) (src_fill d2 o2 y).
  Proof.
    intros x y Hxy. unfold src_fill. replace (src_request y) with (src_request x) by (destruct Hxy as (_ & _ & H & _); exact H). cbn zeta.
    apply run_bind_rel with (R := prod_rel R eq); [apply fill_requested_rel, Hxy|].
    intros [x' r] [y' r'] [Hxy' Hr]. simpl in Hxy', Hr. subst r'. destruct r as [n|e]; [|split; auto].
    pose proof Hxy' as (H1 & H2 & H3 & H4 & H5 & H6). apply run_bind_rel with (R := eq); [apply Hlen, H2|]. intros l _ <-. repeat split; simpl; auto.
  Qed.

  Lemma src_is_empty_rel : forall x y, R x y -> same_run eq (src_is_empty o1 x) (src_is_empty o2 y).
  Proof.
    intros x y Hxy. pose proof Hxy as (H1 & H2 & H3 & H4 & H5 & H6). unfold src_is_empty, src_len. rewrite H5. destruct (src_eoi y); [|reflexivity].
    apply run_bind_rel with (R := eq); [apply Hlen, H2|]. intros l _ <-. reflexivity.
  Qed.

  Lemma src_read_rel : forall n x y, R x y -> same_run (prod_rel R (io_rel (Forall2 RI))) (src_read d1 o1 n x) (src_read d2 o2 n y).
  Proof.
    intros n x y Hxy. pose proof Hxy as (H1 & H2 & H3 & H4 & H5 & H6). unfold src_read, src_len.
    apply run_bind_rel with (R := eq); [apply Hlen, H2|]. intros l _ <-.
    apply run_bind_rel with (R := prod_rel R eq); [destruct (l <? n); [apply fill_requested_rel, Hxy|split; simpl; auto]|].
    intros [x' r] [y' r'] [Hxy' Hr]. simpl in Hxy', Hr. subst r'. destruct r as [k|e]; [|split; simpl; auto].
    pose proof Hxy' as (H1' & H2' & H3' & H4' & H5' & H6'). apply run_bind_rel with (R := Forall2 RI); [apply Hderef, H2'|]. intros d d' Hdd. cbn zeta.
    rewrite (f2_length (f2_firstn n Hdd)). apply run_bind_rel with (R := RB); [apply Hconsume, H2'|]. intros b c Hb.
    split; simpl; [apply src_rel_with; assumption|]. apply f2_firstn, Hdd.
  Qed.

  Lemma src_view_rel : forall x y, R x y -> same_run (Forall2 RI) (src_view o1 x) (src_view o2 y).
  Proof. intros x y (H1 & H2 & _). apply Hderef, H2. Qed.

  Lemma src_fill_buf_rel : forall x y, R x y -> same_run (prod_rel R (io_rel (Forall2 RI))) (src_fill_buf d1 o1 x) (src_fill_buf d2 o2 y).
  Proof.
    intros x y Hxy. pose proof Hxy as (H1 & H2 & _). unfold src_fill_buf, src_capacity. rewrite (Hcap H2).
    apply run_bind_rel with (R := prod_rel R eq); [apply fill_requested_rel, Hxy|].
    intros [x' r] [y' r'] [Hxy' Hr]. simpl in Hxy', Hr. subst r'. destruct r as [k|e]; [|split; simpl; auto].
    apply run_bind_rel with (R := Forall2 RI); [apply src_view_rel, Hxy'|]. intros d d' Hdd. split; simpl; auto.
  Qed.

  Lemma src_consume_rel : forall n x y, R x y -> same_run R (src_consume o1 n x) (src_consume o2 n y).
  Proof.
    intros n x y Hxy. pose proof Hxy as (H1 & H2 & _). unfold src_consume. apply run_bind_rel with (R := RB); [apply Hconsume, H2|].
    intros b c Hb. simpl. apply src_rel_with; assumption.
  Qed.

  Lemma src_parse_rel : forall T U E F (RT : T -> U -> Prop) (RE : E -> F -> Prop) p q,
    (forall i j, input_rel RI i j -> pres_rel RI RT RE (p i) (q j)) -> forall x y, R x y ->
    same_run (prod_rel R (sum_rel RT (stream_error_rel RI RE))) (src_parse d1 o1 p x) (src_parse d2 o2 q y).
  Proof.
    intros T U E F RT RE p q Hpq x y Hxy. pose proof Hxy as (H1 & H2 & H3 & H4 & H5 & H6). unfold src_parse. rewrite H4, H6.
    apply run_bind_rel with (R := prod_rel R eq); [destruct (_ && _); [apply src_fill_rel, Hxy|split; simpl; auto]|]. clear x y Hxy H1 H2 H3 H4 H5 H6.
    intros [x r] [y r'] [Hxy Hr]. simpl in Hxy, Hr. subst r'. destruct r as [k|e]; [|split; simpl; auto].
    apply run_bind_rel with (R := eq); [apply src_is_empty_rel, Hxy|]. intros em _ <-. destruct em; [split; simpl; auto|].
    pose proof Hxy as (H1 & H2 & H3 & H4 & H5 & H6).
    apply run_bind_rel with (R := Forall2 RI); [apply Hderef, H2|]. intros d d' Hdd.
    assert (Hi : input_rel RI (mkInput (src_eoi x) d) (mkInput (src_eoi y) d')) by (split; simpl; auto).
    specialize (Hpq _ _ Hi). destruct (p _) as [i t|b e|n| |], (q _) as [i' t'|b' e'|n'| |]; simpl in Hpq; try contradiction; try exact Hpq.
    - destruct Hpq as [[_ Hb] Ht]. apply run_bind_rel with (R := eq); [apply Hlen, H2|]. intros l _ <-. rewrite (f2_length Hb).
      apply run_bind_rel with (R := eq); [apply same_run_eq|]. intros n _ <-. apply run_bind_rel with (R := RB); [apply Hconsume, H2|]. intros z w Hz.
      split; simpl; [apply src_rel_with; assumption|exact Ht].
    - destruct Hpq as [Hb He]. apply run_bind_rel with (R := eq); [apply Hlen, H2|]. intros l _ <-. rewrite (f2_length Hb).
      apply run_bind_rel with (R := eq); [apply same_run_eq|]. intros n _ <-. apply run_bind_rel with (R := RB); [apply Hconsume, H2|]. intros z w Hz.
      split; simpl; [apply src_rel_with; assumption|auto].
    - subst n'. apply run_bind_rel with (R := eq); [apply Hlen, H2|]. intros l _ <-. cbn zeta. rewrite H5. destruct (src_eoi y); repeat split; simpl; auto.
  Qed.

  Lemma obey_rel : forall v T U E F (RT : T -> U -> Prop) (RE : E -> F -> Prop) a b, order_rel RI v RT RE a b -> forall x y, R x y ->
    same_run (prod_rel R (notice_rel RI RT RE)) (obey d1 o1 a x) (obey d2 o2 b y).
  Proof.
    intros v T U E F RT RE a b Hab x y Hxy. pose proof Hxy as (H1 & H2 & H3 & H4 & H5 & H6).
    destruct a, b; simpl in Hab; try contradiction; subst; cbn [obey].
    - apply run_bind_rel with (R := prod_rel R (sum_rel RT (stream_error_rel RI RE))); [apply src_parse_rel; [apply (linked_rel Hab)|exact Hxy]|].
      intros [s r] [s' r'] [Hs Hr]. split; auto.
    - apply run_bind_rel with (R := prod_rel R eq); [apply src_fill_rel, Hxy|]. intros [s r] [s' r'] [Hs Hr]. split; auto.
    - apply run_bind_rel with (R := prod_rel R (io_rel (Forall2 RI))); [apply src_read_rel, Hxy|]. intros [s r] [s' r'] [Hs Hr]. split; auto.
    - apply run_bind_rel with (R := prod_rel R (io_rel (Forall2 RI))); [apply src_fill_buf_rel, Hxy|]. intros [s r] [s' r'] [Hs Hr]. split; auto.
    - apply run_bind_rel with (R := R); [apply src_consume_rel, Hxy|]. intros s s' Hs. split; simpl; auto.
    - repeat split; simpl; auto.
    - repeat split; simpl; auto.
    - unfold src_len. apply run_bind_rel with (R := eq); [apply Hlen, H2|]. intros l _ <-. split; simpl; auto.
    - apply run_bind_rel with (R := eq); [apply src_is_empty_rel, Hxy|]. intros l _ <-. split; simpl; auto.
    - split; simpl; auto. apply Hcap, H2.
    - apply run_bind_rel with (R := Forall2 RI); [apply src_view_rel, Hxy|]. intros l l' Hl. split; simpl; auto.
  Qed.

  Lemma obeyed_rel : forall v T U E F (RT : T -> U -> Prop) (RE : E -> F -> Prop) (c : list (notice I T E) -> order I T E) (c' : list (notice J U F) -> order J U F),
    (forall l l', Forall2 (notice_rel RI RT RE) l l' -> order_rel RI v RT RE (c l) (c' l')) ->
    forall n past past', Forall2 (notice_rel RI RT RE) past past' -> forall x y, R x y ->
    same_run (prod_rel R (Forall2 (notice_rel RI RT RE))) (obeyed d1 o1 n c past x) (obeyed d2 o2 n c' past' y).
  Proof.
    intros v T U E F RT RE c c' Hc. induction n as [|n IH]; intros past past' Hp x y Hxy; cbn [obeyed]; [split; auto|].
    apply run_bind_rel with (R := prod_rel R (notice_rel RI RT RE)); [eapply obey_rel; [apply Hc, Hp|exact Hxy]|].
    intros [s a] [s' a'] [Hs Ha]. apply IH; [apply f2_app; [exact Hp|constructor; [exact Ha|constructor]]|exact Hs].
  Qed.
End Source.

(** * SliceStream *)

Lemma slice_parse_rel : forall I J (RI : I -> J -> Prop) T U E F (RT : T -> U -> Prop) (RE : E -> F -> Prop) p q,
  (forall i j, input_rel RI i j -> pres_rel RI RT RE (p i) (q j)) -> forall s t, slice_rel RI s t ->
  same_run (prod_rel (slice_rel RI) (sum_rel RT (stream_error_rel RI RE))) (slice_parse p s) (slice_parse q t).
Proof.
  intros I J RI T U E F RT RE p q Hpq s t Hst. pose proof Hst as [Hp Hs]. unfold slice_parse.
  assert (HL : slice_len s = slice_len t) by (unfold slice_len; rewrite Hp, (f2_length Hs); reflexivity).
  unfold slice_is_empty. rewrite HL, Hp. apply run_bind_rel with (R := eq); [apply same_run_eq|]. intros em _ <-. destruct em; [split; simpl; auto|].
  assert (Hi : input_rel RI (mkInput true (skipn (ss_pos t) (ss_slice s))) (mkInput true (skipn (ss_pos t) (ss_slice t)))) by (split; simpl; [reflexivity|apply f2_skipn, Hs]).
  specialize (Hpq _ _ Hi). destruct (p _) as [i x|b e|n| |], (q _) as [i' x'|b' e'|n'| |]; simpl in Hpq; try contradiction; try exact Hpq.
  - destruct Hpq as [[_ Hb] Ht]. apply run_bind_rel with (R := eq); [apply same_run_eq|]. intros l _ <-. rewrite (f2_length Hb).
    apply run_bind_rel with (R := eq); [apply same_run_eq|]. intros n _ <-. repeat split; simpl; auto.
  - destruct Hpq as [Hb He]. apply run_bind_rel with (R := eq); [apply same_run_eq|]. intros l _ <-. rewrite (f2_length Hb).
    apply run_bind_rel with (R := eq); [apply same_run_eq|]. intros n _ <-. repeat split; simpl; auto.
  - subst n'. apply run_bind_rel with (R := eq); [apply same_run_eq|]. intros l _ <-. repeat split; simpl; auto.
Qed.
