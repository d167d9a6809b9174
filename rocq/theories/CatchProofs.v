(** A panic in the data source leaves behind what an I/O error does. *)
From Coq Require Import List Bool Arith Lia.
From Verif Require Import Base Buffer Stream Word Unwind SpecBuffer SpecStream SpecWord SpecUnwind SpecCatch UnwindProofs.
Import ListNotations.

Set Implicit Arguments.

Lemma failing_obeys : forall St I (ds : panicky_source St I), p_obeys ds -> obeys (failing ds).
Proof.
  intros St I ds Ho s n s' w k H. cbn [failing ds_read] in H. destruct (ps_read ds s n) as [[s1 w1] [[j|e]|]] eqn:Hr; try discriminate H.
  injection H as -> -> ->. exact (Ho _ _ _ _ _ Hr).
Qed.

Lemma failing_delivers : forall St I (ds : panicky_source St I) R, p_delivers ds R -> delivers (failing ds) R.
Proof.
  intros St I ds R Hd s d e HR n s' w r H. cbn [failing ds_read] in H. destruct (ps_read ds s n) as [[s1 w1] r1] eqn:Hr.
  pose proof (Hd _ _ _ HR _ _ _ _ Hr) as G. destruct r1 as [[j|x]|]; injection H as -> -> <-; exact G.
Qed.

(** * Calls *)
Lemma thrown_at : forall S X A (st : S) (r : run X) (k k' : X -> call S (io A)),
  (forall x, k x = thrown_io (k' x)) -> at_state st r k = thrown_io (at_state st r k').
Proof. intros S X A st [x| | |] k k' H; cbn; auto. Qed.
Lemma thrown_at_s : forall S X I T E (st : S) (r : run X) (k k' : X -> call S (sres I T E)),
  (forall x, k x = thrown (k' x)) -> at_state st r k = thrown (at_state st r k').
Proof. intros S X I T E st [x| | |] k k' H; cbn; auto. Qed.

Section Source.
  Context {St I B : Type}.
  Variables (m : machine) (ds : panicky_source St I) (ops : u_ops I B).
  Hypothesis Hfill : forall b s, u_fill ops ds b s = thrown_io (u_fill ops (calm (failing ds)) b s).

  Lemma catch_loop : forall fuel q n b s, u_fill_loop m ds ops fuel q n b s = thrown_io (u_fill_loop m (calm (failing ds)) ops fuel q n b s).
  Proof.
    induction fuel as [|fuel IH]; intros q n b s; [reflexivity|]. cbn [u_fill_loop]. apply thrown_at. intros l. destruct (l <? q); [|reflexivity].
    rewrite Hfill. destruct (u_fill ops (calm (failing ds)) b s) as [[b1 s1] [[|k]|[|e]]|[b1 s1]| |]; cbn [thrown_io on_part]; try reflexivity.
    apply thrown_at. intros x. apply IH.
  Qed.

  Lemma catch_requested : forall q st, u_fill_requested m ds ops q st = thrown_io (u_fill_requested m (calm (failing ds)) ops q st).
  Proof.
    intros q st. unfold u_fill_requested. apply thrown_at. intros l. destruct (l <? q); [|reflexivity]. apply thrown_at. intros d.
    destruct (u_request_space ops (src_buffer st) d) as [b u|b| |]; cbn [on_part]; try reflexivity. rewrite catch_loop.
    destruct (u_fill_loop m (calm (failing ds)) ops _ q 0 b (src_source st)) as [x [k|[|e]]|x| |]; reflexivity.
  Qed.

  Lemma catch_fill : forall st, u_src_fill m ds ops st = thrown_io (u_src_fill m (calm (failing ds)) ops st).
  Proof.
    intros st. unfold u_src_fill. rewrite catch_requested. destruct (u_fill_requested m (calm (failing ds)) ops _ st) as [st1 [k|[|e]]|st1| |]; cbn [thrown_io on_part]; try reflexivity.
    apply thrown_at. reflexivity.
  Qed.

  Lemma catch_read : forall n st, u_src_read m ds ops n st = thrown_io (u_src_read m (calm (failing ds)) ops n st).
  Proof.
    intros n st. unfold u_src_read. apply thrown_at. intros l.
    assert (G : (if l <? n then u_fill_requested m ds ops n st else Returns st (IoOk 0)) =
      thrown_io (if l <? n then u_fill_requested m (calm (failing ds)) ops n st else Returns st (IoOk 0)))
      by (destruct (l <? n); [apply catch_requested|reflexivity]). rewrite G. clear G.
    destruct (if l <? n then u_fill_requested m (calm (failing ds)) ops n st else Returns st (IoOk 0)) as [st1 [k|[|e]]|st1| |]; cbn [thrown_io on_part]; try reflexivity.
    apply thrown_at. intros data. destruct (u_consume ops (src_buffer st1) (length (firstn n data))) as [b u|b| |]; reflexivity.
  Qed.

  Lemma catch_fill_buf : forall st, u_src_fill_buf m ds ops st = thrown_io (u_src_fill_buf m (calm (failing ds)) ops st).
  Proof.
    intros st. unfold u_src_fill_buf. rewrite catch_requested. destruct (u_fill_requested m (calm (failing ds)) ops _ st) as [st1 [k|[|e]]|st1| |]; cbn [thrown_io on_part]; try reflexivity.
    apply thrown_at. reflexivity.
  Qed.

  Lemma catch_parse : forall T E (p : parser I T E) st, u_src_parse m ds ops p st = thrown (u_src_parse m (calm (failing ds)) ops p st).
  Proof.
    intros T E p st. unfold u_src_parse.
    assert (G : (if src_incomplete st && src_auto st then u_src_fill m ds ops st else Returns st (IoOk 0)) =
      thrown_io (if src_incomplete st && src_auto st then u_src_fill m (calm (failing ds)) ops st else Returns st (IoOk 0)))
      by (destruct (src_incomplete st && src_auto st); [apply catch_fill|reflexivity]). rewrite G. clear G.
    destruct (if src_incomplete st && src_auto st then u_src_fill m (calm (failing ds)) ops st else Returns st (IoOk 0)) as [st1 [k|[|e]]|st1| |]; cbn [thrown_io on_part]; try reflexivity.
    apply thrown_at_s. intros [|]; [reflexivity|]. apply thrown_at_s. intros data. destruct (p (mkInput (src_eoi st1) data)) as [j v|b x|n| |]; try reflexivity.
    - apply thrown_at_s. intros l. apply thrown_at_s. intros n. destruct (u_consume ops (src_buffer st1) n) as [b u|b| |]; reflexivity.
    - apply thrown_at_s. intros l. apply thrown_at_s. intros n. destruct (u_consume ops (src_buffer st1) n) as [b2 u|b2| |]; reflexivity.
    - apply thrown_at_s. intros l. apply thrown_at_s. intros q. destruct (src_eoi st1); reflexivity.
  Qed.

  Lemma catch_calls : forall st, panics_are_errors m ds ops st.
  Proof. intros st. split; [intros T E p; apply catch_parse|apply catch_fill|intros n; apply catch_read|apply catch_fill_buf]. Qed.

  (** * Programs *)
  Variable o : buffer_ops I B.
  Hypothesis H : same_ops ops o.

  Lemma catch_insist : forall T E (p : parser I T E) fuel st st' r, w_insist m (failing ds) o fuel p st = Done (st', r) -> u_insist m ds ops fuel p st = Done (st', r).
  Proof.
    intros T E p. induction fuel as [|fuel IH]; intros st st' r Hw; [discriminate Hw|]. cbn [w_insist] in Hw. cbn [u_insist].
    rewrite <- (same_parse m (failing ds) H p st) in Hw. rewrite catch_parse.
    destruct (u_src_parse m (calm (failing ds)) ops p st) as [st1 [v|[b x|n|[|e]| |]]|st1| |]; cbn [outcome run_bind thrown] in *; try discriminate Hw; auto.
  Qed.

  Lemma catch_script : forall T E (c : script I T E) fuel st out, w_on_source m (failing ds) o fuel c st = Done out -> u_on_source m ds ops fuel c st = Done out.
  Proof.
    intros T E c fuel. induction c as [|p k IH]; intros st out Hw; cbn [w_on_source u_on_source] in *; [exact Hw|].
    destruct (w_insist m (failing ds) o fuel p st) as [[st1 r]| | |] eqn:Hi; cbn [run_bind] in Hw; try discriminate Hw. rewrite (catch_insist _ _ _ Hi). cbn [run_bind].
    destruct (w_on_source m (failing ds) o fuel (k (forget r)) st1) as [rs| | |] eqn:Hs; cbn [run_bind] in Hw; try discriminate Hw. rewrite (IH _ _ _ Hs). exact Hw.
  Qed.
End Source.

Lemma catch_fixed : forall m St I (ds : panicky_source St I) b s, u_fill (u_fixed_ops I m) ds b s = thrown_io (u_fill (u_fixed_ops I m) (calm (failing ds)) b s).
Proof.
  intros m St I ds b s. cbn [u_fixed_ops u_fill]. unfold u_fixed_fill. apply thrown_at. intros _. cbn [calm failing ps_read ds_read].
  destruct (ps_read ds s (length (f_mem b) - f_populated b)) as [[s1 w] [[n|e]|]]; try reflexivity. apply thrown_at. intros _. apply thrown_at. reflexivity.
Qed.
Lemma catch_growing : forall m St I (ds : panicky_source St I) b s, u_fill (u_growing_ops I m) ds b s = thrown_io (u_fill (u_growing_ops I m) (calm (failing ds)) b s).
Proof.
  intros m St I ds b s. cbn [u_growing_ops u_fill]. unfold u_growing_fill. apply thrown_at. intros _. cbn [calm failing ps_read ds_read].
  destruct (ps_read ds s (length (g_mem b) - g_populated b)) as [[s1 w] [[n|e]|]]; try reflexivity. apply thrown_at. intros _. apply thrown_at. reflexivity.
Qed.

(** * Iterators *)
Lemma singly_delivers : forall It I (next : It -> option (option I) * It) R, hands_out next R -> p_delivers (singly (iter_source_p next)) R.
Proof.
  intros It I next R Hy s d e HR n s' w r H. cbn [singly iter_source_p ps_read] in H. destruct n as [|n]; cbn [Nat.min iter_read_p] in H.
  - injection H as <- <- <-. split; [lia|]. exists [], d. repeat split; auto.
  - specialize (Hy _ _ _ HR). replace (Nat.min n 0) with 0 in H by lia. cbn [iter_read_p] in H.
    destruct (next s) as [[[x|]|] s1]; cbn in H; injection H as <- <- <-.
    + destruct Hy as (d' & -> & Hd). split; [lia|]. exists [x], d'. repeat split; auto. discriminate.
    + destruct Hy as (-> & Hd). split; [lia|]. exists [], []. repeat split; auto.
    + exact Hy.
Qed.
Lemma singly_obeys : forall It I (next : It -> option (option I) * It), p_obeys (singly (iter_source_p next)).
Proof.
  intros It I next s n s' w k H. cbn [singly iter_source_p ps_read] in H. destruct n as [|n]; cbn [Nat.min iter_read_p] in H.
  - injection H as <- <- <-. split; [lia|]. exists []. split; reflexivity.
  - replace (Nat.min n 0) with 0 in H by lia. cbn [iter_read_p] in H. destruct (next s) as [[[x|]|] s1]; cbn in H; try discriminate H; injection H as <- <- <-.
    + split; [lia|]. exists [x]. split; reflexivity.
    + split; [lia|]. exists []. split; reflexivity.
Qed.
