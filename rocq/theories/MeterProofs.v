(** Proofs about what buffers move. *)
From Coq Require Import List Bool Arith Lia.
From Verif Require Import Base Buffer Stream SpecBase SpecSafe SpecBuffer SpecStream Meter SpecMeter BufferProofs StreamProofs.
Import ListNotations.

Set Implicit Arguments.

(** * The meter does not disturb *)
Section Undisturbed.
  Context {St I B : Type}.
  Variable ds : data_source St I.
  Variable ops : buffer_ops I B.
  Variable request : B * meter -> nat -> run (B * meter).
  Hypothesis Hrequest : forall x k, (let! y := request x k in Done (fst y)) = op_request_space ops (fst x) k.
  Let mops := metered ops request.

  Lemma loop_unmetered : forall fuel q n x s, (let! (x', s', r) := fill_loop ds mops fuel q n x s in Done (fst x', s', r)) =
    fill_loop ds ops fuel q n (fst x) s.
  Proof.
    induction fuel as [|fuel IH]; intros q n [b mt] s; [reflexivity|]. unfold mops in *. cbn [fill_loop metered op_len op_fill fst metered_fill].
    destruct (op_len ops b) as [l| | |]; try reflexivity. cbn [run_bind]. destruct (l <? q); [|reflexivity].
    destruct (op_fill ops ds b s) as [[[b1 s1] r]| | |]; try reflexivity. cbn [run_bind]. destruct r as [[|k]|e]; try reflexivity. apply IH.
  Qed.
  Lemma requested_unmetered : forall q st, apart_from_meter (fill_requested ds mops q st) = fill_requested ds ops q (unmetered st).
  Proof.
    intros q st. unfold fill_requested, apart_from_meter, mops. cbn [metered op_len op_request_space unmetered src_buffer src_source].
    destruct (op_len ops _) as [l| | |]; try reflexivity. cbn [run_bind]. destruct (l <? q); [|reflexivity]. destruct (usize_sub q l) as [k| | |]; try reflexivity. cbn [run_bind].
    rewrite <- Hrequest. destruct (request _ _) as [x| | |]; try reflexivity. cbn [run_bind]. fold mops. rewrite <- loop_unmetered.
    destruct (fill_loop _ _ _ _ _ _ _) as [[[x1 s1] r]| | |]; reflexivity.
  Qed.
  Lemma srcfill_unmetered : forall st, apart_from_meter (src_fill ds mops st) = src_fill ds ops (unmetered st).
  Proof.
    intros st. unfold src_fill. rewrite <- requested_unmetered. cbn [unmetered src_request]. unfold apart_from_meter.
    destruct (fill_requested _ _ _ _) as [[st1 [n|e]]| | |]; try reflexivity. cbn [run_bind unmetered src_buffer]. unfold mops. cbn [metered op_len].
    destruct (op_len ops _); reflexivity.
  Qed.
  Lemma meter_undisturbed : forall st, undisturbed ds ops mops st.
  Proof.
    intros st. split.
    - intros T E p. unfold src_parse. cbn [unmetered src_incomplete src_auto].
      set (f := if src_incomplete st && src_auto st then src_fill ds mops st else Done (st, IoOk 0)).
      replace (if src_incomplete st && src_auto st then src_fill ds ops (unmetered st) else Done (unmetered st, IoOk 0)) with (apart_from_meter f)
        by (unfold f; destruct (_ && _); [apply srcfill_unmetered|reflexivity]).
      destruct f as [[st1 [n|e]]| | |]; try reflexivity. unfold apart_from_meter. cbn [run_bind].
      replace (src_is_empty ops (unmetered st1)) with (src_is_empty mops st1) by reflexivity.
      destruct (src_is_empty mops st1) as [[|]| | |]; try reflexivity. unfold mops. cbn [run_bind metered op_deref op_len op_consume unmetered src_buffer src_eoi].
      destruct (op_deref ops _) as [d| | |]; try reflexivity. cbn [run_bind].
      destruct (p _) as [j v|b x|k| |]; try reflexivity; (destruct (op_len ops _) as [l| | |]; try reflexivity); cbn [run_bind].
      + destruct (usize_sub _ _) as [k| | |]; try reflexivity. cbn [run_bind]. destruct (op_consume ops _ _); reflexivity.
      + destruct (usize_sub _ _) as [k| | |]; try reflexivity. cbn [run_bind]. destruct (op_consume ops _ _); reflexivity.
      + destruct (src_eoi st1); reflexivity.
    - apply srcfill_unmetered.
    - intros n. unfold src_read. replace (src_len ops (unmetered st)) with (src_len mops st) by reflexivity.
      destruct (src_len mops st) as [l| | |]; try reflexivity. cbn [run_bind].
      set (f := if l <? n then fill_requested ds mops n st else Done (st, IoOk 0)).
      replace (if l <? n then fill_requested ds ops n (unmetered st) else Done (unmetered st, IoOk 0)) with (apart_from_meter f)
        by (unfold f; destruct (_ <? _); [apply requested_unmetered|reflexivity]).
      destruct f as [[st1 [k|e]]| | |]; try reflexivity. unfold apart_from_meter, mops. cbn [run_bind metered op_deref op_consume unmetered src_buffer].
      destruct (op_deref ops _) as [d| | |]; try reflexivity. cbn [run_bind]. destruct (op_consume ops _ _); reflexivity.
    - unfold src_fill_buf. change (src_capacity ops (unmetered st)) with (src_capacity mops st). rewrite <- requested_unmetered. unfold apart_from_meter.
      destruct (fill_requested _ _ _ _) as [[st1 [k|e]]| | |]; try reflexivity. cbn [run_bind].
      change (src_view ops (unmetered st1)) with (src_view mops st1). destruct (src_view mops st1); reflexivity.
    - intros n. unfold src_consume, mops. cbn [metered op_consume unmetered src_buffer]. destruct (op_consume ops _ _); reflexivity.
  Qed.
End Undisturbed.

Lemma fixed_request_unmetered : forall I (x : fixed I * meter) k, (let! y := fixed_request_space_m x k in Done (fst y)) = op_request_space (fixed_ops I) (fst x) k.
Proof.
  intros I [b mt] k. cbn [fst fixed_ops op_request_space]. unfold fixed_request_space_m, fixed_request_space. destruct (assert _); try reflexivity. cbn [run_bind].
  destruct (usize_sub _ _) as [room| | |]; try reflexivity. cbn [run_bind]. destruct (room <? k); [|reflexivity]. destruct (usize_sub _ _); try reflexivity. cbn [run_bind].
  destruct (copy_down _ _ _); reflexivity.
Qed.
Lemma growing_request_unmetered : forall I (x : growing I * meter) k, (let! y := growing_request_space_m x k in Done (fst y)) = op_request_space (growing_ops I) (fst x) k.
Proof.
  intros I [b mt] k. cbn [fst growing_ops op_request_space]. unfold growing_request_space_m, growing_request_space. destruct (_ && _); [reflexivity|].
  destruct (growing_len b) as [l| | |]; try reflexivity. cbn [run_bind].
  destruct (usize_sub _ _) as [room| | |]; try reflexivity. cbn [run_bind]. destruct (room <? k); [|reflexivity]. destruct (usize_sub _ _); try reflexivity. cbn [run_bind].
  destruct (copy_down _ _ _); reflexivity.
Qed.

(** * Invariants of demanding runs *)
Section Invariant.
  Context {St I B : Type}.
  Variable ds : data_source St I.
  Variable ops : buffer_ops I B.
  Variable filling : bool.
  Variable M : nat.
  Variable J : B -> St -> Prop.
  Hypothesis HM : 1 <= M.
  Hypothesis Jrequest : forall b s b' l k, J b s -> op_len ops b = Done l -> 0 < k -> (l + k <= M \/ (filling = true /\ l + k = op_capacity ops b)) ->
    op_request_space ops b k = Done b' -> J b' s.
  Hypothesis Jfill : forall b s b' s' r, J b s -> op_fill ops ds b s = Done (b', s', r) -> J b' s'.
  Hypothesis Jconsume : forall b s b' k, J b s -> op_consume ops b k = Done b' -> J b' s.

  Lemma loop_invariant : forall fuel q n b s b' s' r, J b s -> fill_loop ds ops fuel q n b s = Done (b', s', r) -> J b' s'.
  Proof.
    induction fuel as [|fuel IH]; intros q n b s b' s' r Hj H; [discriminate|]. cbn [fill_loop] in H.
    destruct (op_len ops b) as [l| | |]; try discriminate. cbn [run_bind] in H. destruct (l <? q).
    - destruct (op_fill ops ds b s) as [[[b1 s1] r1]| | |] eqn:Ef; try discriminate. cbn [run_bind] in H. apply Jfill in Ef; [|assumption].
      destruct r1 as [[|k]|e].
      + injection H as <- <- <-. assumption.
      + exact (IH _ _ _ _ _ _ _ Ef H).
      + injection H as <- <- <-. assumption.
    - injection H as <- <- <-. assumption.
  Qed.
  Lemma requested_invariant : forall q st st' r, J (src_buffer st) (src_source st) -> q <= M \/ (filling = true /\ q = op_capacity ops (src_buffer st)) ->
    fill_requested ds ops q st = Done (st', r) -> J (src_buffer st') (src_source st') /\ src_request st' = src_request st.
  Proof.
    intros q st st' r Hj Hq H. unfold fill_requested in H. destruct (op_len ops (src_buffer st)) as [l| | |] eqn:El; try discriminate. cbn [run_bind] in H.
    destruct (Nat.ltb_spec l q) as [Hlt|_].
    - unfold usize_sub in H. replace (l <=? q) with true in H by (symmetry; apply Nat.leb_le; lia). cbn [run_bind] in H.
      destruct (op_request_space _ _ _) as [b| | |] eqn:Er; try discriminate. cbn [run_bind] in H.
      eapply Jrequest in Er; [|eassumption|eassumption|lia|destruct Hq as [Hq|[Hq1 Hq2]]; [left; lia|right; split; [assumption|lia]]].
      destruct (fill_loop _ _ _ _ _ _ _) as [[[b1 s1] r1]| | |] eqn:El1; try discriminate. cbn [run_bind] in H. injection H as <- <-.
      split; [|reflexivity]. exact (loop_invariant _ _ _ Er El1).
    - injection H as <- <-. split; [assumption|reflexivity].
  Qed.
  Lemma srcfill_invariant : forall st st' r, J (src_buffer st) (src_source st) -> src_request st <= M -> src_fill ds ops st = Done (st', r) ->
    J (src_buffer st') (src_source st') /\ src_request st' = src_request st.
  Proof.
    intros st st' r Hj Hq H. unfold src_fill in H. destruct (fill_requested _ _ _ _) as [[st1 r1]| | |] eqn:Ef; try discriminate. cbn [run_bind] in H.
    apply requested_invariant in Ef; [|assumption|left; lia]. destruct r1 as [n|e].
    - destruct (op_len _ _) as [l| | |]; try discriminate. cbn [run_bind] in H. injection H as <- <-. exact Ef.
    - injection H as <- <-. exact Ef.
  Qed.
  Lemma demanding_invariant : forall s0 b0 st, J b0 s0 -> demanding ds ops filling M s0 b0 st -> J (src_buffer st) (src_source st) /\ src_request st <= M.
  Proof.
    intros s0 b0 st H0 H. induction H as [|st T E p st' r _ IH H Hq|st st' r _ IH H|st n st' r _ IH Hn H|st st' r _ IH Hf H|st n st' _ IH H|st _ IH|st v _ IH].
    - split; [exact H0|cbn; lia].
    - destruct IH as [Hj Hr]. split; [|assumption]. unfold src_parse in H.
      destruct (if _ && _ then _ else _) as [[st1 f]| | |] eqn:Ef; try discriminate. cbn [run_bind] in H.
      assert (Hj1 : J (src_buffer st1) (src_source st1)).
      { destruct (_ && _); [apply (srcfill_invariant _ Hj Hr) in Ef; apply Ef|injection Ef as <- <-; assumption]. }
      destruct f as [n|e]; [|injection H as <- <-; assumption]. destruct (src_is_empty _ _) as [[|]| | |]; try discriminate; cbn [run_bind] in H; [injection H as <- <-; assumption|].
      destruct (op_deref _ _) as [d| | |]; try discriminate. cbn [run_bind] in H.
      destruct (p _) as [j v|b x|k| |]; try discriminate; (destruct (op_len _ _) as [l| | |]; try discriminate); cbn [run_bind] in H.
      + destruct (usize_sub _ _) as [k| | |]; try discriminate. cbn [run_bind] in H. destruct (op_consume _ _ _) as [b1| | |] eqn:Ec; try discriminate. cbn [run_bind] in H.
        injection H as <- <-. exact (Jconsume _ Hj1 Ec).
      + destruct (usize_sub _ _) as [k| | |]; try discriminate. cbn [run_bind] in H. destruct (op_consume _ _ _) as [b1| | |] eqn:Ec; try discriminate. cbn [run_bind] in H.
        injection H as <- <-. exact (Jconsume _ Hj1 Ec).
      + destruct (src_eoi st1); injection H as <- <-; exact Hj1.
    - destruct IH as [Hj Hr]. destruct (srcfill_invariant _ Hj Hr H) as [G1 G2]. split; [assumption|lia].
    - destruct IH as [Hj Hr]. unfold src_read in H. destruct (src_len _ _) as [l| | |]; try discriminate. cbn [run_bind] in H.
      destruct (if _ <? _ then _ else _) as [[st1 f]| | |] eqn:Ef; try discriminate. cbn [run_bind] in H.
      assert (Hj1 : J (src_buffer st1) (src_source st1) /\ src_request st1 = src_request st).
      { destruct (_ <? _); [apply (@requested_invariant _ _ _ _ Hj) in Ef; [assumption|left; assumption]|injection Ef as <- <-; split; [assumption|reflexivity]]. }
      destruct Hj1 as [Hj1 Hr1]. destruct f as [k|e]; [|injection H as <- <-; split; [assumption|lia]]. destruct (op_deref _ _) as [d| | |]; try discriminate. cbn [run_bind] in H.
      destruct (op_consume _ _ _) as [b1| | |] eqn:Ec; try discriminate. cbn [run_bind] in H. injection H as <- <-. split; [exact (Jconsume _ Hj1 Ec)|cbn; lia].
    - destruct IH as [Hj Hr]. unfold src_fill_buf in H. destruct (fill_requested _ _ _ _) as [[st1 f]| | |] eqn:Ef; try discriminate. cbn [run_bind] in H.
      apply (@requested_invariant _ _ _ _ Hj) in Ef; [|right; split; [assumption|reflexivity]]. destruct Ef as [Hj1 Hr1].
      destruct f as [k|e]; [|injection H as <- <-; split; [assumption|lia]]. destruct (src_view _ _); try discriminate. cbn [run_bind] in H. injection H as <- <-. split; [assumption|lia].
    - destruct IH as [Hj Hr]. unfold src_consume in H. destruct (op_consume _ _ _) as [b1| | |] eqn:Ec; try discriminate. cbn [run_bind] in H. injection H as <-.
      split; [exact (Jconsume _ Hj Ec)|exact Hr].
    - exact IH.
    - exact IH.
  Qed.
End Invariant.

(** * FixedSizeBuffer *)

(** Inversions of the operations. *)
Lemma usize_sub_done : forall a b c, usize_sub a b = Done c -> b <= a /\ c = a - b.
Proof. intros a b c H. unfold usize_sub in H. destruct (Nat.leb_spec b a); [|discriminate]. injection H as <-. split; [assumption|reflexivity]. Qed.
Lemma assert_done : forall c u, assert c = Done u -> c = true.
Proof. intros [|] u H; [reflexivity|discriminate]. Qed.
Lemma copy_down_done : forall I (m m' : memory I) from count, copy_down m from count = Done m' -> from + count <= length m /\ length m' = length m.
Proof.
  intros I m m' from count H. unfold copy_down in H. destruct (Nat.leb_spec (from + count) (length m)); [|discriminate]. injection H as <-.
  split; [assumption|]. rewrite app_length, firstn_length, !skipn_length. lia.
Qed.

Section Fixed.
  Context {I : Type}.
  Variable size : nat.

  Definition f_ok (b : fixed I) : Prop := f_used b <= f_populated b /\ f_populated b <= size /\ length (f_mem b) = size.

  Lemma fixed_fill_done : forall St (ds : data_source St I) b s b' s' r, f_ok b -> fixed_fill ds b s = Done (b', s', r) ->
    f_ok b' /\ f_used b' = f_used b /\ f_populated b' = f_populated b + match r with IoOk n => n | IoErr _ => 0 end.
  Proof.
    intros St ds b s b' s' r (H1 & H2 & H3) H. unfold fixed_fill in H. destruct (assert _); try discriminate. cbn [run_bind] in H.
    destruct (ds_read _ _ _) as [[s1 w] [n|e]].
    - destruct (assert (_ <=? length _)) eqn:Eb; try discriminate. cbn [run_bind] in H. injection H as <- <- <-. apply assert_done, Nat.leb_le in Eb.
      unfold f_ok. cbn [f_mem f_populated f_used]. rewrite app_length, overwrite_length, firstn_length, skipn_length in *. repeat split; lia.
    - injection H as <- <- <-. unfold f_ok. cbn [f_mem f_populated f_used]. rewrite app_length, overwrite_length, firstn_length, skipn_length in *. repeat split; lia.
  Qed.
  Lemma fixed_consume_done : forall b b' k, f_ok b -> fixed_consume b k = Done b' -> f_ok b' /\ f_populated b' = f_populated b.
  Proof.
    intros b b' k (H1 & H2 & H3) H. unfold fixed_consume in H. destruct (assert _) eqn:Ea; try discriminate. cbn [run_bind] in H. injection H as <-.
    apply assert_done, Nat.leb_le in Ea. unfold f_ok. cbn [f_mem f_populated f_used]. repeat split; lia.
  Qed.
  Lemma fixed_request_done : forall b mt b' mt' k, f_ok b -> fixed_request_space_m (b, mt) k = Done (b', mt') ->
    f_ok b' /\ ((b' = b /\ mt' = mt) \/
      (size - f_populated b < k /\ f_populated b' = f_populated b - f_used b /\ f_used b' = 0 /\ mt' = meter_move (f_populated b - f_used b) mt)).
  Proof.
    intros b mt b' mt' k (H1 & H2 & H3) H. unfold fixed_request_space_m in H. destruct (assert _); try discriminate. cbn [run_bind] in H.
    destruct (usize_sub _ _) as [room| | |] eqn:Eu; try discriminate. cbn [run_bind] in H. apply usize_sub_done in Eu. destruct Eu as [_ ->].
    destruct (Nat.ltb_spec (length (f_mem b) - f_populated b) k) as [Hlt|_].
    - destruct (usize_sub _ _) as [n| | |] eqn:Eu; try discriminate. cbn [run_bind] in H. apply usize_sub_done in Eu. destruct Eu as [_ ->].
      destruct (copy_down _ _ _) as [m| | |] eqn:Ec; try discriminate. cbn [run_bind] in H. injection H as <- <-. apply copy_down_done in Ec. destruct Ec as [_ Ec].
      split; [unfold f_ok; cbn [f_mem f_populated f_used]; repeat split; lia|]. right. cbn [f_mem f_populated f_used]. repeat split; lia.
    - injection H as <- <-. split; [repeat split; assumption|]. left. split; reflexivity.
  Qed.

  (** What the meter may show when [a] items were left at the last move. *)
  Definition f_metered (M : nat) (x : fixed I * meter) : Prop :=
    let '(b, mt) := x in
    f_ok b /\ exists a, a <= M - 1 /\ a <= f_populated b /\ f_populated b - a <= mt_received mt /\
      mt_moves mt * (size + 2 - 2 * M) <= mt_received mt - (f_populated b - a) /\
      mt_moved mt * (size + 2 - 2 * M) <= (M - 1) * (mt_received mt - (f_populated b - a)) /\
      mt_moved mt <= (M - 1) * mt_moves mt.

  Lemma f_metered_request : forall M x x' l k, 1 <= M -> 2 * M <= size + 1 -> f_metered M x -> fixed_len (fst x) = Done l -> 0 < k -> l + k <= M ->
    fixed_request_space_m x k = Done x' -> f_metered M x'.
  Proof.
    intros M [b mt] [b' mt'] l k HM Hs (Hok & a & H1 & H2 & H3 & H4 & H5 & H6) Hl Hk Hlk H. cbn [fst] in Hl. apply usize_sub_done in Hl. destruct Hl as [Hl ->].
    destruct (fixed_request_done _ _ Hok H) as (Hok' & [[-> ->]|(G1 & G2 & G3 & ->)]); [split; [assumption|]; exists a; repeat split; assumption|].
    split; [assumption|]. rewrite G2. exists (f_populated b - f_used b). rewrite Nat.sub_diag, Nat.sub_0_r.
    cbn [meter_move mt_moves mt_moved mt_received]. destruct Hok as (K1 & K2 & K3). set (L := f_populated b - f_used b) in *. set (K := size + 2 - 2 * M) in *.
    assert (HK : K <= f_populated b - a) by (unfold K; lia). repeat split; try lia.
    - rewrite Nat.mul_add_distr_r. transitivity ((M - 1) * (mt_received mt - (f_populated b - a)) + (M - 1) * K); [apply Nat.add_le_mono; [assumption|apply Nat.mul_le_mono_r; lia]|].
      rewrite <- Nat.mul_add_distr_l. apply Nat.mul_le_mono_l. lia.
  Qed.
  Lemma f_metered_fill : forall M St (ds : data_source St I) x s x' s' r, f_metered M x -> op_fill (fixed_metered I) ds x s = Done (x', s', r) ->
    f_metered M x' /\ mt_received (snd x') = mt_received (snd x) + match r with IoOk n => n | IoErr _ => 0 end.
  Proof.
    intros M St ds [b mt] s [b' mt'] s' r (Hok & a & H1 & H2 & H3 & H4 & H5 & H6) H. cbn [fixed_metered metered op_fill metered_fill fixed_ops] in H.
    destruct (fixed_fill ds b s) as [[[b1 s1] r1]| | |] eqn:Ef; try discriminate. cbn [run_bind] in H. injection H as <- <- <- <-.
    destruct (fixed_fill_done _ _ Hok Ef) as (Hok' & G1 & G2). split.
    - split; [assumption|]. exists a. rewrite G2. destruct r1 as [n|e]; cbn [meter_received mt_moves mt_moved mt_received] in *.
      + replace (mt_received mt + n - (f_populated b + n - a)) with (mt_received mt - (f_populated b - a)) by lia. repeat split; try assumption; lia.
      + rewrite Nat.add_0_r. repeat split; assumption.
    - destruct r1; cbn [snd meter_received mt_received]; lia.
  Qed.
  Lemma f_metered_consume : forall M x x' k, f_metered M x -> op_consume (fixed_metered I) x k = Done x' -> f_metered M x' /\ snd x' = snd x.
  Proof.
    intros M [b mt] [b' mt'] k (Hok & a & H) Hc. cbn [fixed_metered metered op_consume fixed_ops fst snd] in Hc. destruct (fixed_consume b k) as [b1| | |] eqn:Ec; try discriminate.
    cbn [run_bind] in Hc. injection Hc as <- <-. destruct (fixed_consume_done _ Hok Ec) as (Hok' & G). split; [|reflexivity]. split; [assumption|]. exists a. rewrite G. assumption.
  Qed.
  Lemma f_metered_new : forall M b, fixed_with_size size = Done b -> f_metered M (b, meter_zero).
  Proof.
    intros M b H. unfold fixed_with_size in H. destruct (assert _); try discriminate. cbn [run_bind] in H. injection H as <-. split.
    - unfold f_ok. cbn [f_mem f_populated f_used]. rewrite repeat_length. repeat split; lia.
    - exists 0. cbn. repeat split; lia.
  Qed.
End Fixed.

(** * GrowingBuffer *)
Section Growing.
  Context {I : Type}.

  Definition g_ok (b : growing I) : Prop := g_used b <= g_populated b /\ g_populated b <= length (g_mem b) /\ length (g_mem b) = g_cap b.

  Lemma growing_fill_done : forall St (ds : data_source St I) b s b' s' r, g_ok b -> growing_fill ds b s = Done (b', s', r) -> g_ok b' /\ g_cap b' = g_cap b.
  Proof.
    intros St ds b s b' s' r (H1 & H2 & H3) H. unfold growing_fill in H. destruct (assert _); try discriminate. cbn [run_bind] in H.
    destruct (ds_read _ _ _) as [[s1 w] [n|e]].
    - destruct (assert (_ <=? length _)) eqn:Eb; try discriminate. cbn [run_bind] in H. injection H as <- <- <-. apply assert_done, Nat.leb_le in Eb.
      unfold g_ok. cbn [g_mem g_cap g_populated g_used]. rewrite app_length, overwrite_length, firstn_length, skipn_length in *. repeat split; lia.
    - injection H as <- <- <-. unfold g_ok. cbn [g_mem g_cap g_populated g_used]. rewrite app_length, overwrite_length, firstn_length, skipn_length in *. repeat split; lia.
  Qed.
  Lemma growing_consume_done : forall b b' k, g_ok b -> growing_consume b k = Done b' -> g_ok b' /\ g_cap b' = g_cap b.
  Proof.
    intros b b' k (H1 & H2 & H3) H. unfold growing_consume in H. destruct (assert _) eqn:Ea; try discriminate. cbn [run_bind] in H. injection H as <-.
    apply assert_done, Nat.leb_le in Ea. unfold g_ok. cbn [g_mem g_cap g_populated g_used]. repeat split; lia.
  Qed.
  Lemma growing_request_done : forall b mt b' mt' k, g_ok b -> 0 < k -> growing_request_space_m (b, mt) k = Done (b', mt') ->
    let mt1 := if g_cap b <? g_cap b' then meter_allocation (g_cap b) mt else mt in
    g_ok b' /\ (g_cap b' = g_cap b \/ (g_cap b < k + (g_populated b - g_used b) /\ g_cap b + k <= g_cap b')) /\
    (mt' = mt1 \/ mt' = meter_move (g_populated b - g_used b) mt1).
  Proof.
    intros b mt b' mt' k (H1 & H2 & H3) Hk H. unfold growing_request_space_m in H. destruct (_ && _).
    { injection H as <- <-. cbn zeta. rewrite Nat.ltb_irrefl. repeat split; try assumption; left; reflexivity. }
    destruct (growing_len b) as [l| | |] eqn:El; try discriminate. cbn [run_bind] in H. apply usize_sub_done in El. destruct El as [_ ->].
    replace (k <=? g_cap b - length (g_mem b)) with false in H by (symmetry; apply Nat.leb_gt; lia). cbn [negb] in H. rewrite andb_true_r in H.
    destruct (Nat.ltb_spec (g_cap b) (k + (g_populated b - g_used b))) as [Hlt|Hge].
    - unfold growing_reserve in H. replace (k <=? g_cap b - length (g_mem b)) with false in H by (symmetry; apply Nat.leb_gt; lia).
      unfold growing_set_len in H. cbn [g_mem g_cap g_populated g_limit g_used g_alloc g_count] in H.
      set (c := length (g_mem b) + k + g_alloc b (g_count b)) in *.
      destruct (usize_sub _ _) as [room| | |] eqn:Eu; try discriminate. cbn [run_bind] in H. apply usize_sub_done in Eu. destruct Eu as [_ ->].
      assert (Hm : length (g_mem b ++ repeat None (c - length (g_mem b))) = c) by (rewrite app_length, repeat_length; unfold c; lia).
      destruct (_ <? k).
      + destruct (usize_sub _ _) as [n| | |] eqn:Eu; try discriminate. cbn [run_bind] in H. apply usize_sub_done in Eu. destruct Eu as [_ ->].
        destruct (copy_down _ _ _) as [m| | |] eqn:Ec; try discriminate. cbn [run_bind] in H. injection H as <- <-. apply copy_down_done in Ec. destruct Ec as [_ Ec].
        unfold g_ok. cbn [g_mem g_cap g_populated g_used]. replace (g_cap b <? c) with true by (symmetry; apply Nat.ltb_lt; unfold c; lia).
        rewrite H3. repeat split; try lia. right; reflexivity.
      + injection H as <- <-. unfold g_ok. cbn [g_mem g_cap g_populated g_used]. replace (g_cap b <? c) with true by (symmetry; apply Nat.ltb_lt; unfold c; lia).
        rewrite H3 in *. repeat split; try lia. left; reflexivity.
    - destruct (usize_sub _ _) as [room| | |] eqn:Eu; try discriminate. cbn [run_bind] in H. apply usize_sub_done in Eu. destruct Eu as [_ ->].
      destruct (_ <? k).
      + destruct (usize_sub _ _) as [n| | |] eqn:Eu; try discriminate. cbn [run_bind] in H. apply usize_sub_done in Eu. destruct Eu as [_ ->].
        destruct (copy_down _ _ _) as [m| | |] eqn:Ec; try discriminate. cbn [run_bind] in H. injection H as <- <-. apply copy_down_done in Ec. destruct Ec as [_ Ec].
        unfold g_ok. cbn [g_mem g_cap g_populated g_used]. rewrite Nat.ltb_irrefl. repeat split; try lia. right; reflexivity.
      + injection H as <- <-. rewrite Nat.ltb_irrefl. repeat split; try assumption; left; reflexivity.
  Qed.

  (** What the meter may show. *)
  Definition g_metered (filling : bool) (M : nat) (x : growing I * meter) : Prop :=
    let '(b, mt) := x in
    let c := Nat.min (g_cap b) M in
    g_ok b /\ mt_allocations mt <= c /\ 2 * mt_relocated mt <= c * (c - 1) /\ (filling = false -> mt_moved mt <= (M - 1) * mt_moves mt).

  Lemma g_metered_request : forall filling M x x' l k, 1 <= M -> g_metered filling M x -> growing_len (fst x) = Done l -> 0 < k ->
    (l + k <= M \/ (filling = true /\ l + k = growing_capacity (fst x))) -> growing_request_space_m x k = Done x' -> g_metered filling M x'.
  Proof.
    intros filling M [b mt] [b' mt'] l k HM (Hok & H1 & H2 & H3) Hl Hk Hlk H. cbn [fst] in Hl, Hlk. apply usize_sub_done in Hl. destruct Hl as [Hl ->].
    destruct (growing_request_done _ Hok Hk H) as (Hok' & Hcap & Hmt). destruct Hok as (K1 & K2 & K3). split; [assumption|].
    assert (Hmoved : (filling = false -> mt_moved mt' <= (M - 1) * mt_moves mt')).
    { intros Hf. specialize (H3 Hf). destruct Hlk as [Hlk|[Hlk _]]; [|congruence].
      assert (G : mt_moved (if g_cap b <? g_cap b' then meter_allocation (g_cap b) mt else mt) = mt_moved mt /\
                  mt_moves (if g_cap b <? g_cap b' then meter_allocation (g_cap b) mt else mt) = mt_moves mt) by (destruct (_ <? _); split; reflexivity).
      destruct G as [G1 G2]. destruct Hmt as [-> | ->]; cbn [meter_move mt_moved mt_moves]; rewrite G1, G2; [assumption|]. rewrite Nat.mul_succ_r. lia. }
    assert (Hall : mt_allocations mt' = mt_allocations (if g_cap b <? g_cap b' then meter_allocation (g_cap b) mt else mt) /\
                   mt_relocated mt' = mt_relocated (if g_cap b <? g_cap b' then meter_allocation (g_cap b) mt else mt)) by (destruct Hmt as [-> | ->]; split; reflexivity).
    destruct Hall as [Ha Hr]. rewrite Ha, Hr. clear Ha Hr Hmt. destruct Hcap as [Hcap|[G1 G2]].
    - rewrite Hcap, Nat.ltb_irrefl. repeat split; assumption.
    - destruct Hlk as [Hlk|[_ Hlk]]; [|unfold growing_capacity in Hlk; lia]. replace (g_cap b <? g_cap b') with true by (symmetry; apply Nat.ltb_lt; lia).
      cbn [meter_allocation mt_allocations mt_relocated]. rewrite (Nat.min_l (g_cap b) M) in H1, H2 by lia. set (c' := Nat.min (g_cap b') M).
      assert (Hc : g_cap b + 1 <= c') by (unfold c'; lia). repeat split; [lia| |assumption].
      transitivity ((g_cap b + 1) * (g_cap b + 1 - 1)); [destruct (g_cap b); cbn [Nat.sub Nat.add] in *; nia|]. apply Nat.mul_le_mono; lia.
  Qed.
  Lemma g_metered_fill : forall filling M St (ds : data_source St I) x s x' s' r, g_metered filling M x -> op_fill (growing_metered I) ds x s = Done (x', s', r) ->
    g_metered filling M x'.
  Proof.
    intros filling M St ds [b mt] s [b' mt'] s' r (Hok & H) Hf. cbn [growing_metered metered op_fill metered_fill growing_ops] in Hf.
    destruct (growing_fill ds b s) as [[[b1 s1] r1]| | |] eqn:Ef; try discriminate. cbn [run_bind] in Hf. injection Hf as <- <- <- <-.
    destruct (growing_fill_done _ _ Hok Ef) as (Hok' & G). split; [assumption|]. rewrite G. destruct r1; exact H.
  Qed.
  Lemma g_metered_consume : forall filling M x x' k, g_metered filling M x -> op_consume (growing_metered I) x k = Done x' -> g_metered filling M x'.
  Proof.
    intros filling M [b mt] [b' mt'] k (Hok & H) Hc. cbn [growing_metered metered op_consume growing_ops fst snd] in Hc. destruct (growing_consume b k) as [b1| | |] eqn:Ec; try discriminate.
    cbn [run_bind] in Hc. injection Hc as <- <-. destruct (growing_consume_done _ Hok Ec) as (Hok' & G). split; [assumption|]. rewrite G. exact H.
  Qed.
  Lemma g_metered_new : forall filling M alloc limit, g_metered filling M (growing_with_limit 0 alloc limit, meter_zero).
  Proof. intros. split; [repeat split; cbn; lia|]. cbn. repeat split; lia. Qed.
End Growing.

(** * Sliding windows *)
Lemma slide : forall I (y x : I) w, exists m, copy_down (List.map Some (y :: w)) 1 (length w) = Done m /\ length m = S (length w) /\
  firstn (length w) m ++ overwrite [Some x] (skipn (length w) m) = List.map Some (w ++ [x]).
Proof.
  intros I y x w. unfold copy_down. cbn [List.map length skipn]. rewrite map_length, Nat.leb_refl. eexists. split; [reflexivity|].
  rewrite firstn_all2 by (rewrite map_length; lia).
  assert (H : exists z, skipn (length w) (Some y :: List.map Some w) = [z]).
  { clear x. revert y. induction w as [|v w IH]; intros y; [exists (Some y); reflexivity|]. cbn [length List.map skipn]. apply (IH v). }
  destruct H as [z H]. rewrite H. split; [rewrite app_length, map_length; cbn; lia|].
  rewrite firstn_app, firstn_all2 by (rewrite map_length; lia). rewrite map_length, Nat.sub_diag. cbn [firstn]. rewrite app_nil_r.
  rewrite skipn_app, skipn_all2 by (rewrite map_length; lia). rewrite map_length, Nat.sub_diag. cbn [skipn app overwrite]. rewrite map_app. reflexivity.
Qed.

Lemma usize_sub_le : forall a b, b <= a -> usize_sub a b = Done (a - b).
Proof. intros a b H. unfold usize_sub. apply Nat.leb_le in H. rewrite H. reflexivity. Qed.
Lemma assert_true : forall c, c = true -> assert c = Done tt.
Proof. intros c ->. reflexivity. Qed.

Section Sliding.
  Context {I : Type}.
  Let chunks : data_source (list (option (list I))) I := read_data_source chunk_read.

  Lemma chunk_read_one : forall (x : I) c, c <> [] -> ds_read chunks [Some (x :: c)] 1 = ([Some c], [Some x], IoOk 1).
  Proof. intros x [|z c] H; [contradiction|reflexivity]. Qed.

  (** Filling one slot that has been freed. *)
  Lemma fixed_fill_slot : forall (w : list I) x c m, c <> [] -> length m = S (length w) ->
    firstn (length w) m ++ overwrite [Some x] (skipn (length w) m) = List.map Some (w ++ [x]) ->
    fixed_fill chunks (mkFixed m (length w) 0) [Some (x :: c)] = Done (mkFixed (List.map Some (w ++ [x])) (S (length w)) 0, [Some c], IoOk 1).
  Proof.
    intros w x c m Hc Hl Hm. unfold fixed_fill. cbn [f_mem f_populated f_used]. rewrite assert_true by (apply Nat.leb_le; lia). cbn [run_bind].
    replace (length m - length w) with 1 by lia. rewrite chunk_read_one by assumption. rewrite Hm.
    rewrite assert_true by (apply Nat.leb_le; rewrite map_length, app_length; cbn; lia). cbn [run_bind]. rewrite Nat.add_1_r. reflexivity.
  Qed.

  Lemma fill_buf_slides : forall (y x : I) w c mt q i e a, c <> [] ->
    src_fill_buf chunks (fixed_metered I) (mkSrc [Some (x :: c)] (mkFixed (List.map Some (y :: w)) (S (length w)) 1, mt) q i e a) =
    Done (mkSrc [Some c] (mkFixed (List.map Some (w ++ [x])) (S (length w)) 0, meter_received 1 (meter_move (length w) mt)) q i e a, IoOk (w ++ [x])).
  Proof.
    intros y x w c mt q i e a Hc. destruct (slide y x w) as (m & Hm1 & Hm2 & Hm3).
    unfold src_fill_buf, src_capacity, fill_requested. cbn [fixed_metered metered op_capacity op_len op_request_space fixed_ops src_buffer src_source fst].
    unfold fixed_len, fixed_capacity. cbn [f_populated f_used f_mem]. rewrite map_length. cbn [length].
    rewrite usize_sub_le by lia. cbn [Nat.sub]. rewrite Nat.sub_0_r. cbn [run_bind]. replace (length w <? S (length w)) with true by (symmetry; apply Nat.ltb_lt; lia).
    rewrite usize_sub_le by lia. replace (S (length w) - length w) with 1 by lia. cbn [run_bind].
    unfold fixed_request_space_m. cbn [f_populated f_used f_mem]. cbn [Nat.leb assert run_bind]. rewrite map_length. cbn [length].
    rewrite usize_sub_le by lia. rewrite Nat.sub_diag. cbn [run_bind]. replace (0 <? 1) with true by reflexivity. rewrite usize_sub_le by lia. cbn [Nat.sub]. rewrite Nat.sub_0_r. cbn [run_bind].
    rewrite Hm1. cbn [run_bind fill_loop fixed_metered metered fixed_ops op_len op_fill fst]. unfold fixed_len. cbn [f_populated f_used f_mem]. rewrite usize_sub_le by lia. rewrite Nat.sub_0_r. cbn [run_bind].
    replace (length w <? S (length w)) with true by (symmetry; apply Nat.ltb_lt; lia).
    unfold metered_fill. cbn [op_fill fixed_ops]. rewrite fixed_fill_slot by assumption. cbn [run_bind op_len fst]. unfold fixed_len. cbn [f_populated f_used f_mem].
    rewrite usize_sub_le by lia. rewrite Nat.sub_0_r. cbn [run_bind]. rewrite Nat.ltb_irrefl. cbn [run_bind src_with src_request src_incomplete src_eoi src_auto src_source].
    unfold src_view. cbn [op_deref fixed_metered metered fixed_ops src_buffer fst]. unfold fixed_deref, src_with. cbn [src_buffer fst src_request src_incomplete src_eoi src_auto]. cbn [f_populated f_used f_mem].
    rewrite map_length, app_length. cbn [length]. rewrite Nat.add_1_r, Nat.leb_refl. cbn [Nat.leb andb assert run_bind]. rewrite Nat.sub_0_r. cbn [skipn].
    rewrite firstn_all2 by (rewrite map_length, app_length; cbn; lia). rewrite expose_map. reflexivity.
  Qed.
  Lemma consume_slid : forall (w : list I) n mt s q i e a,
    src_consume (fixed_metered I) 1 (mkSrc s (mkFixed (List.map Some w) (S n) 0, mt) q i e a : src (list (option (list I))) _) =
    Done (mkSrc s (mkFixed (List.map Some w) (S n) 1, mt) q i e a).
  Proof. reflexivity. Qed.

  Lemma singly_slides : forall n w (y : I) c mt q i e a, n < length c -> exists y' w' c',
    take_singly chunks (fixed_metered I) n (mkSrc [Some c] (mkFixed (List.map Some (y :: w)) (S (length w)) 1, mt) q i e a) =
      Done (mkSrc [Some c'] (mkFixed (List.map Some (y' :: w')) (S (length w)) 1,
        mkMeter (mt_moves mt + n) (mt_moved mt + n * length w) (mt_allocations mt) (mt_relocated mt) (mt_received mt + n)) q i e a) /\
    length w' = length w.
  Proof.
    induction n as [|n IH]; intros w y c mt q i e a Hn.
    - exists y, w, c. cbn [take_singly]. cbn [Nat.mul]. rewrite !Nat.add_0_r. split; [destruct mt; reflexivity|reflexivity].
    - destruct c as [|x c]; [cbn in Hn; lia|]. cbn [length] in Hn. cbn [take_singly]. rewrite fill_buf_slides by (intros ->; cbn in Hn; lia). cbn [run_bind]. rewrite consume_slid. cbn [run_bind].
      destruct (w ++ [x]) as [|y1 w1] eqn:Ew; [destruct w; discriminate|]. assert (Hl : length w1 = length w) by (apply (f_equal (@length I)) in Ew; rewrite app_length in Ew; cbn in Ew; lia).
      rewrite <- Hl. destruct (IH w1 y1 c (meter_received 1 (meter_move (length w1) mt)) q i e a ltac:(lia)) as (y' & w' & c' & H1 & H2).
      exists y', w', c'. split; [|assumption]. rewrite H1. cbn [meter_received meter_move mt_moves mt_moved mt_allocations mt_relocated mt_received].
      replace (S (mt_moves mt) + n) with (mt_moves mt + S n) by lia. replace (mt_moved mt + length w1 + n * length w1) with (mt_moved mt + S n * length w1) by (cbn [Nat.mul]; lia). replace (mt_received mt + 1 + n) with (mt_received mt + S n) by lia. reflexivity.
  Qed.

  (** A growing buffer that is full, one item of it having been used. *)
  Definition g_full (w : list I) used (cnt : nat) (mt : meter) : growing I * meter :=
    (mkGrowing (List.map Some w) (length w) (length w) 0 used (fun _ => 0) cnt, mt).

  Lemma growing_fill_slot : forall (w : list I) x c m cap cnt, c <> [] -> length m = S (length w) ->
    firstn (length w) m ++ overwrite [Some x] (skipn (length w) m) = List.map Some (w ++ [x]) ->
    growing_fill chunks (mkGrowing m cap (length w) 0 0 (fun _ => 0) cnt) [Some (x :: c)] =
      Done (mkGrowing (List.map Some (w ++ [x])) cap (S (length w)) 0 0 (fun _ => 0) cnt, [Some c], IoOk 1).
  Proof.
    intros w x c m cap cnt Hc Hl Hm. unfold growing_fill. cbn [g_mem g_populated g_used g_cap g_limit g_alloc g_count]. rewrite assert_true by (apply Nat.leb_le; lia). cbn [run_bind].
    replace (length m - length w) with 1 by lia. rewrite chunk_read_one by assumption. rewrite Hm.
    rewrite assert_true by (apply Nat.leb_le; rewrite map_length, app_length; cbn; lia). cbn [run_bind]. rewrite Nat.add_1_r. reflexivity.
  Qed.
  Lemma growing_request_slides : forall (y : I) w m cnt mt, copy_down (List.map Some (y :: w)) 1 (length w) = Done m ->
    growing_request_space_m (g_full (y :: w) 1 cnt mt) 1 =
      Done (mkGrowing m (S (length w)) (length w) 0 0 (fun _ => 0) cnt, meter_move (length w) mt).
  Proof.
    intros y w m cnt mt Hm. unfold growing_request_space_m, g_full, growing_len. cbn [g_mem g_populated g_used g_cap g_limit g_alloc g_count negb andb Nat.eqb length].
    rewrite usize_sub_le by lia. cbn [Nat.sub]. rewrite Nat.sub_0_r. cbn [run_bind].
    replace (S (length w) <? 1 + length w) with false by (symmetry; apply Nat.ltb_ge; lia). cbn [andb g_mem g_populated g_used g_cap g_limit g_alloc g_count].
    rewrite map_length. cbn [length]. rewrite usize_sub_le by lia. rewrite Nat.sub_diag. cbn [run_bind]. replace (0 <? 1) with true by reflexivity.
    rewrite usize_sub_le by lia. cbn [Nat.sub]. rewrite Nat.sub_0_r. cbn [run_bind]. rewrite Hm. reflexivity.
  Qed.

  (** Two calls: the first asks for the item that the second gets. *)
  Lemma ahead_slides : forall (y x : I) w c cnt mt q, c <> [] ->
    parse_times chunks (growing_metered I) (ahead (S (length w))) 2 (mkSrc [Some (x :: c)] (g_full (y :: w) 1 cnt mt) q false false true) =
    Done (mkSrc [Some c] (g_full (w ++ [x]) 1 cnt (meter_received 1 (meter_move (length w) mt))) (S (length w)) false false true).
  Proof.
    intros y x w c cnt mt q Hc. destruct (slide y x w) as (m & Hm1 & Hm2 & Hm3). cbn [parse_times].
    assert (H1 : src_parse chunks (growing_metered I) (ahead (S (length w))) (mkSrc [Some (x :: c)] (g_full (y :: w) 1 cnt mt) q false false true) =
      Done (mkSrc [Some (x :: c)] (g_full (y :: w) 1 cnt mt) (S (length w)) true false true, inr SRetry)).
    { unfold src_parse. cbn [src_incomplete src_auto andb run_bind]. unfold src_is_empty. cbn [src_eoi run_bind growing_metered metered growing_ops op_deref op_len src_buffer g_full fst].
      unfold growing_deref, growing_len. cbn [g_mem g_populated g_used g_cap g_limit g_alloc g_count]. rewrite map_length, Nat.leb_refl. cbn [length Nat.leb andb assert run_bind].
      cbn [Nat.sub List.map skipn]. rewrite Nat.sub_0_r. rewrite firstn_all2 by (rewrite map_length; lia). rewrite expose_map. cbn [run_bind].
      unfold ahead. cbn [buf]. replace (length w <? S (length w)) with true by (symmetry; apply Nat.ltb_lt; lia). replace (S (length w) - length w) with 1 by lia.
      rewrite usize_sub_le by lia. cbn [Nat.sub]. rewrite Nat.sub_0_r. cbn [run_bind]. rewrite (Nat.add_1_r (length w)). reflexivity. }
    rewrite H1. cbn [run_bind]. clear H1.
    assert (H2 : fill_requested chunks (growing_metered I) (S (length w)) (mkSrc [Some (x :: c)] (g_full (y :: w) 1 cnt mt) (S (length w)) true false true) =
      Done (mkSrc [Some c] (g_full (w ++ [x]) 0 cnt (meter_received 1 (meter_move (length w) mt))) (S (length w)) true false true, IoOk 1)).
    { unfold fill_requested. cbn [growing_metered metered growing_ops op_len op_request_space src_buffer src_source]. unfold g_full at 1 2. cbn [fst]. unfold growing_len at 1. cbn [g_populated g_used length].
      rewrite usize_sub_le by lia. cbn [Nat.sub]. rewrite Nat.sub_0_r. cbn [run_bind]. replace (length w <? S (length w)) with true by (symmetry; apply Nat.ltb_lt; lia).
      rewrite usize_sub_le by lia. replace (S (length w) - length w) with 1 by lia. cbn [run_bind]. fold (g_full (y :: w) 1 cnt mt).
      change (mkGrowing (List.map Some (y :: w)) (S (length w)) (S (length w)) 0 1 (fun _ => 0) cnt, mt) with (g_full (y :: w) 1 cnt mt).
      rewrite (growing_request_slides _ _ cnt mt Hm1). cbn [run_bind fill_loop op_len op_fill growing_metered metered growing_ops fst]. unfold growing_len. cbn [g_populated g_used]. rewrite usize_sub_le by lia.
      rewrite Nat.sub_0_r. cbn [run_bind]. replace (length w <? S (length w)) with true by (symmetry; apply Nat.ltb_lt; lia).
      unfold metered_fill. cbn [op_fill growing_ops]. rewrite growing_fill_slot by assumption. cbn [run_bind op_len fst g_populated g_used].
      rewrite usize_sub_le by lia. rewrite Nat.sub_0_r. cbn [run_bind]. rewrite Nat.ltb_irrefl. cbn [run_bind]. unfold src_with, g_full. cbn [src_request src_incomplete src_eoi src_auto].
      rewrite app_length. cbn [length]. rewrite (Nat.add_1_r (length w)). reflexivity. }
    assert (H3 : src_fill chunks (growing_metered I) (mkSrc [Some (x :: c)] (g_full (y :: w) 1 cnt mt) (S (length w)) true false true) =
      Done (mkSrc [Some c] (g_full (w ++ [x]) 0 cnt (meter_received 1 (meter_move (length w) mt))) (S (length w)) false false true, IoOk 1)).
    { unfold src_fill. cbn [src_request]. replace (Nat.max 1 (S (length w))) with (S (length w)) by lia. rewrite H2. cbn [run_bind growing_metered metered growing_ops op_len src_buffer g_full fst].
      unfold growing_len. cbn [g_populated g_used]. rewrite usize_sub_le by lia. rewrite Nat.sub_0_r, app_length. cbn [run_bind length]. rewrite (Nat.add_1_r (length w)), Nat.leb_refl. reflexivity. }
    unfold src_parse. cbn [src_incomplete src_auto andb]. rewrite H3. cbn [run_bind]. unfold src_is_empty. cbn [src_eoi run_bind growing_metered metered growing_ops op_deref op_len op_consume src_buffer g_full fst].
    unfold growing_deref, growing_len. cbn [g_mem g_populated g_used g_cap g_limit g_alloc g_count]. rewrite map_length, Nat.leb_refl. cbn [Nat.leb andb assert run_bind skipn]. rewrite Nat.sub_0_r.
    rewrite firstn_all2 by (rewrite map_length; lia). rewrite expose_map. cbn [run_bind]. unfold ahead. cbn [buf]. rewrite app_length. cbn [length]. rewrite (Nat.add_1_r (length w)), Nat.ltb_irrefl.
    rewrite usize_sub_le by lia. rewrite Nat.sub_0_r. cbn [run_bind buf]. replace (length (tl (w ++ [x]))) with (length w) by (destruct w; cbn; [reflexivity|rewrite app_length; cbn; lia]).
    rewrite usize_sub_le by lia. replace (S (length w) - length w) with 1 by lia. cbn [run_bind].
    unfold growing_consume. cbn [g_mem g_populated g_used g_cap g_limit g_alloc g_count Nat.leb Nat.add assert run_bind]. unfold src_with. cbn [src_source src_request src_incomplete src_eoi src_auto snd]. unfold g_full.
    rewrite app_length. cbn [length]. rewrite (Nat.add_1_r (length w)). reflexivity.
  Qed.

  Lemma overwrite_fresh : forall l : list I, overwrite (List.map Some l) (repeat None (length l)) = List.map Some l.
  Proof. induction l as [|x l IH]; [reflexivity|]. cbn [List.map length repeat overwrite]. rewrite IH. reflexivity. Qed.

  (** The first two calls. *)
  Lemma ahead_starts : forall (x z : I) d c, c <> [] ->
    parse_times chunks (growing_metered I) (ahead (S (S (length d)))) 2 (src_with_buffer [Some (x :: z :: d ++ c)] (growing_with_limit 0 (fun _ => 0) 0, meter_zero)) =
    Done (mkSrc [Some c] (g_full (x :: z :: d) 1 2 (mkMeter 0 0 2 1 (S (S (length d))))) (S (S (length d))) false false true).
  Proof.
    intros x z d c Hc. cbn [parse_times].
    assert (H1 : src_parse chunks (growing_metered I) (ahead (S (S (length d)))) (src_with_buffer [Some (x :: z :: d ++ c)] (growing_with_limit 0 (fun _ => 0) 0, meter_zero)) =
      Done (mkSrc [Some (z :: d ++ c)] (mkGrowing [Some x] 1 1 0 0 (fun _ => 0) 1, mkMeter 0 0 1 0 1) (S (S (length d))) true false true, inr SRetry)) by reflexivity.
    rewrite H1. cbn [run_bind]. clear H1. set (M := S (S (length d))).
    set (st := mkSrc [Some (z :: d ++ c)] (mkGrowing [Some x] 1 1 0 0 (fun _ => 0) 1, mkMeter 0 0 1 0 1) M true false true).
    set (full := fun u => g_full (x :: z :: d) u 2 (mkMeter 0 0 2 1 M)).
    assert (Hr : growing_request_space_m (src_buffer st) (S (length d)) =
      Done (mkGrowing (Some x :: repeat None (S (length d))) M 1 0 0 (fun _ => 0) 2, mkMeter 0 0 2 1 1)).
    { unfold st, growing_request_space_m, growing_len. cbn [src_buffer g_limit Nat.eqb negb andb g_populated g_used usize_sub Nat.leb Nat.sub run_bind g_cap length g_mem].
      replace (1 <? S (length d) + 1) with true by (symmetry; apply Nat.ltb_lt; lia). cbn [andb negb]. unfold growing_reserve, growing_set_len.
      cbn [g_limit g_populated g_used g_cap length g_mem g_alloc g_count Nat.sub Nat.leb Nat.add]. rewrite Nat.add_0_r. cbn [app length]. rewrite repeat_length.
      fold M. unfold M. rewrite usize_sub_le by lia. cbn [run_bind Nat.sub]. rewrite Nat.ltb_irrefl. reflexivity. }
    assert (Hf : growing_fill chunks (mkGrowing (Some x :: repeat None (S (length d))) M 1 0 0 (fun _ => 0) 2) [Some (z :: d ++ c)] =
      Done (mkGrowing (List.map Some (x :: z :: d)) M M 0 0 (fun _ => 0) 2, [Some c], IoOk (S (length d)))).
    { unfold growing_fill. cbn [g_mem g_populated g_used g_cap g_limit g_alloc g_count length]. rewrite repeat_length. cbn [Nat.leb assert run_bind Nat.sub ds_read chunks read_data_source chunk_read skipn firstn].
      rewrite skipn_app, skipn_all, Nat.sub_diag. cbn [skipn app]. rewrite firstn_app, firstn_all, Nat.sub_diag. cbn [firstn]. rewrite app_nil_r.
      rewrite <- (overwrite_fresh (z :: d)) at 1. cbn [length repeat]. change (Some z :: List.map Some d) with (List.map Some (z :: d)).
      change (None :: repeat None (length d)) with (repeat (@None I) (length (z :: d))). rewrite overwrite_fresh.
      destruct c as [|y c]; [contradiction|]. cbn [app length List.map]. rewrite overwrite_length, repeat_length. rewrite assert_true by (apply Nat.leb_le; lia). reflexivity. }
    assert (H2 : fill_requested chunks (growing_metered I) M st = Done (mkSrc [Some c] (full 0) M true false true, IoOk (S (length d)))).
    { unfold fill_requested. cbn [growing_metered metered growing_ops op_len op_request_space]. unfold st at 1. cbn [src_buffer fst]. unfold growing_len at 1. cbn [g_populated g_used usize_sub Nat.leb Nat.sub run_bind].
      replace (1 <? M) with true by (symmetry; apply Nat.ltb_lt; unfold M; lia). rewrite usize_sub_le by (unfold M; lia). replace (M - 1) with (S (length d)) by (unfold M; lia). cbn [run_bind].
      rewrite Hr. cbn [run_bind fill_loop op_len op_fill growing_metered metered growing_ops fst]. unfold growing_len. cbn [g_populated g_used usize_sub Nat.leb Nat.sub run_bind].
      replace (1 <? M) with true by (symmetry; apply Nat.ltb_lt; unfold M; lia). unfold metered_fill. cbn [op_fill growing_ops]. unfold st. cbn [src_source]. rewrite Hf. cbn [run_bind].
      cbn [op_len fst g_populated g_used]. rewrite usize_sub_le by lia. rewrite Nat.sub_0_r. cbn [run_bind]. rewrite Nat.ltb_irrefl. cbn [run_bind]. reflexivity. }
    assert (H3 : src_fill chunks (growing_metered I) st = Done (mkSrc [Some c] (full 0) M false false true, IoOk (S (length d)))).
    { unfold src_fill. replace (Nat.max 1 (src_request st)) with M by (unfold st; cbn [src_request]; unfold M; lia). rewrite H2. cbn [run_bind growing_metered metered growing_ops op_len src_buffer full g_full fst].
      unfold growing_len. cbn [g_populated g_used length]. rewrite usize_sub_le by lia. rewrite Nat.sub_0_r. fold M. cbn [run_bind]. rewrite Nat.leb_refl. reflexivity. }
    unfold src_parse. replace (src_incomplete st && src_auto st) with true by reflexivity. rewrite H3. cbn [run_bind]. unfold src_is_empty. cbn [src_eoi run_bind growing_metered metered growing_ops op_deref op_len op_consume src_buffer full g_full fst].
    unfold growing_deref, growing_len. cbn [g_mem g_populated g_used g_cap g_limit g_alloc g_count]. rewrite map_length, Nat.leb_refl. cbn [Nat.leb andb assert run_bind skipn]. rewrite Nat.sub_0_r.
    rewrite firstn_all2 by (rewrite map_length; lia). rewrite expose_map. cbn [run_bind]. unfold ahead. cbn [buf length]. fold M. rewrite Nat.ltb_irrefl.
    rewrite usize_sub_le by lia. rewrite Nat.sub_0_r. cbn [run_bind buf tl length]. rewrite usize_sub_le by (unfold M; lia). replace (M - S (length d)) with 1 by (unfold M; lia). reflexivity.
  Qed.

  Lemma parse_times_app : forall T E (p : parser I T E) n m (st : src (list (option (list I))) (growing I * meter)),
    parse_times chunks (growing_metered I) p (n + m) st = run_bind (parse_times chunks (growing_metered I) p n st) (parse_times chunks (growing_metered I) p m).
  Proof.
    intros T E p. induction n as [|n IH]; intros m st; [reflexivity|]. cbn [Nat.add parse_times]. destruct (src_parse _ _ _ _) as [[st1 r]| | |]; try reflexivity. cbn [run_bind]. apply IH.
  Qed.

  Lemma ahead_iterates : forall n w (y : I) c cnt mt q, n < length c -> exists y' w' c',
    parse_times chunks (growing_metered I) (ahead (S (length w))) (2 * n) (mkSrc [Some c] (g_full (y :: w) 1 cnt mt) q false false true) =
      Done (mkSrc [Some c'] (g_full (y' :: w') 1 cnt
        (mkMeter (mt_moves mt + n) (mt_moved mt + n * length w) (mt_allocations mt) (mt_relocated mt) (mt_received mt + n))) (if n =? 0 then q else S (length w)) false false true) /\
    length w' = length w.
  Proof.
    induction n as [|n IH]; intros w y c cnt mt q Hn.
    - exists y, w, c. cbn [Nat.mul parse_times Nat.eqb]. rewrite !Nat.add_0_r. split; [destruct mt; reflexivity|reflexivity].
    - destruct c as [|x c]; [cbn in Hn; lia|]. cbn [length] in Hn. replace (2 * S n) with (2 + 2 * n) by lia. rewrite parse_times_app. rewrite ahead_slides by (intros ->; cbn in Hn; lia). cbn [run_bind Nat.eqb].
      destruct (w ++ [x]) as [|y1 w1] eqn:Ew; [destruct w; discriminate|]. assert (Hl : length w1 = length w) by (apply (f_equal (@length I)) in Ew; rewrite app_length in Ew; cbn in Ew; lia).
      rewrite <- Hl. destruct (IH w1 y1 c cnt (meter_received 1 (meter_move (length w1) mt)) (S (length w1)) ltac:(lia)) as (y' & w' & c' & H1 & H2).
      exists y', w', c'. split; [|assumption]. rewrite H1. cbn [meter_received meter_move mt_moves mt_moved mt_allocations mt_relocated mt_received].
      replace (S (mt_moves mt) + n) with (mt_moves mt + S n) by lia. replace (mt_moved mt + length w1 + n * length w1) with (mt_moved mt + S n * length w1) by (cbn [Nat.mul]; lia).
      replace (mt_received mt + 1 + n) with (mt_received mt + S n) by lia. destruct (n =? 0); reflexivity.
  Qed.

  (** The first round of [fill_buf] and [consume(1)]. *)
  Lemma singly_starts : forall (y : I) w c, c <> [] ->
    take_singly chunks (fixed_metered I) 1 (src_with_buffer [Some (y :: w ++ c)] (mkFixed (repeat None (S (length w))) 0 0, meter_zero)) =
    Done (mkSrc [Some c] (mkFixed (List.map Some (y :: w)) (S (length w)) 1, mkMeter 0 0 0 0 (S (length w))) 0 true false true).
  Proof.
    intros y w c Hc. cbn [take_singly]. set (n := S (length w)). set (st := src_with_buffer _ _).
    assert (Hf : fixed_fill chunks (mkFixed (repeat None n) 0 0) [Some (y :: w ++ c)] = Done (mkFixed (List.map Some (y :: w)) n 0, [Some c], IoOk n)).
    { unfold fixed_fill. cbn [f_mem f_populated f_used Nat.leb assert run_bind]. rewrite repeat_length, Nat.sub_0_r. cbn [ds_read chunks read_data_source]. unfold chunk_read, n. cbn [skipn firstn].
      rewrite skipn_app, skipn_all, Nat.sub_diag. cbn [skipn app]. rewrite firstn_app, firstn_all, Nat.sub_diag. cbn [firstn]. rewrite app_nil_r.
      change (S (length w)) with (length (y :: w)). rewrite overwrite_fresh. destruct c as [|x c]; [contradiction|]. cbn [Nat.add]. rewrite map_length. rewrite assert_true by (apply Nat.leb_refl). reflexivity. }
    assert (H : src_fill_buf chunks (fixed_metered I) st = Done (mkSrc [Some c] (mkFixed (List.map Some (y :: w)) n 0, mkMeter 0 0 0 0 n) 0 true false true, IoOk (y :: w))).
    { unfold src_fill_buf, src_capacity, fill_requested, st. cbn [src_with_buffer fixed_metered metered fixed_ops op_capacity op_len op_request_space src_buffer src_source fst]. unfold fixed_capacity, fixed_len. cbn [f_mem f_populated f_used].
      rewrite repeat_length. unfold usize_sub at 1. cbn [Nat.leb run_bind]. replace (0 <? n) with true by reflexivity. rewrite usize_sub_le by lia. rewrite Nat.sub_0_r. cbn [run_bind].
      unfold fixed_request_space_m. cbn [f_mem f_populated f_used Nat.leb assert run_bind]. rewrite repeat_length. rewrite usize_sub_le by lia. rewrite Nat.sub_0_r. cbn [run_bind]. rewrite Nat.ltb_irrefl. cbn [run_bind].
      cbn [fill_loop fixed_metered metered fixed_ops op_len op_fill fst]. unfold fixed_len. cbn [f_populated f_used]. unfold usize_sub at 1. cbn [Nat.leb run_bind Nat.sub]. replace (0 <? n) with true by reflexivity.
      unfold metered_fill. cbn [op_fill fixed_ops]. rewrite Hf. unfold n at 3. cbn [run_bind]. unfold n at 1. cbn [fill_loop op_len fst fixed_metered metered fixed_ops]. unfold fixed_len. cbn [f_populated f_used]. rewrite usize_sub_le by lia. rewrite Nat.sub_0_r. cbn [run_bind]. fold n. rewrite Nat.ltb_irrefl. cbn [run_bind].
      unfold src_view, src_with. cbn [op_deref fixed_metered metered fixed_ops src_buffer fst]. unfold fixed_deref. cbn [f_mem f_populated f_used]. rewrite map_length. cbn [length]. fold n. rewrite Nat.leb_refl. cbn [Nat.leb andb assert run_bind skipn]. rewrite Nat.sub_0_r.
      rewrite firstn_all2 by (rewrite map_length; cbn; unfold n; lia). rewrite expose_map. reflexivity. }
    rewrite H. cbn [run_bind]. unfold n. rewrite consume_slid. reflexivity.
  Qed.
  Lemma take_singly_S : forall n (st : src (list (option (list I))) (fixed I * meter)),
    take_singly chunks (fixed_metered I) (S n) st = run_bind (take_singly chunks (fixed_metered I) 1 st) (take_singly chunks (fixed_metered I) n).
  Proof.
    intros n st. cbn [take_singly]. destruct (src_fill_buf _ _ _) as [[st1 r]| | |]; try reflexivity. cbn [run_bind]. destruct (src_consume _ _ _); reflexivity.
  Qed.
End Sliding.
