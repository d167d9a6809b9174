(** Proofs about the two buffers. *)
From Coq Require Import List Bool Arith Lia.
From Verif Require Import Base Buffer SpecBuffer.
Import ListNotations.

Set Implicit Arguments.

(** * Lists and memory *)
Lemma skipn_skipn : forall A (l : list A) x y, skipn x (skipn y l) = skipn (x + y) l.
Proof.
  intros A l x y. revert l. induction y as [|y IH]; intros l; [rewrite Nat.add_0_r; reflexivity|].
  rewrite Nat.add_succ_r. destruct l; [rewrite !skipn_nil; reflexivity|]. simpl. apply IH.
Qed.

Section Mem.
  Context {I : Type}.
  Implicit Types (m w : memory I) (l c : list I).

  Definition slice m (pop used : nat) : memory I := firstn (pop - used) (skipn used m).
  Definition sview m pop used : list I := somes (slice m pop used).
  (** Indices in order, and everything between them written. *)
  Definition sound m (pop used : nat) : Prop :=
    used <= pop /\ pop <= length m /\ slice m pop used = List.map Some (sview m pop used).

  Lemma somes_map : forall l, somes (List.map Some l) = l.
  Proof. induction l; simpl; congruence. Qed.

  Lemma expose_map : forall l, expose (List.map Some l) = Done l.
  Proof. induction l as [|x l IH]; simpl; auto. rewrite IH. reflexivity. Qed.

  Lemma overwrite_length : forall w m, length (overwrite w m) = length m.
  Proof. induction w as [|[x|] w IH]; destruct m; simpl; auto. Qed.

  Lemma overwrite_writes : forall c w m, writes w c -> length c <= length m -> firstn (length c) (overwrite w m) = List.map Some c.
  Proof.
    unfold writes. induction c as [|x c IH]; intros w m Hw Hl; [reflexivity|].
    destruct w as [|[y|] w]; simpl in Hw; try discriminate. inversion Hw; subst.
    destruct m as [|z m]; simpl in Hl; [lia|]. simpl. f_equal. apply IH; [assumption|lia].
  Qed.

  Lemma delivered_writes : forall c w, writes w c -> delivered w (length c) = c.
  Proof. intros c w H. unfold delivered. rewrite H. apply somes_map. Qed.

  Lemma slice_length : forall m pop used, used <= pop -> pop <= length m -> length (slice m pop used) = pop - used.
  Proof. intros. unfold slice. rewrite firstn_length, skipn_length. lia. Qed.

  Lemma sview_length : forall m pop used, sound m pop used -> length (sview m pop used) = pop - used.
  Proof. intros m pop used (Hu & Hp & Hs). rewrite <- (slice_length m Hu Hp). rewrite Hs. rewrite map_length. reflexivity. Qed.

  Lemma sound_intro : forall m pop used l, used <= pop -> pop <= length m -> slice m pop used = List.map Some l ->
    sound m pop used /\ sview m pop used = l.
  Proof. intros. unfold sound, sview. rewrite H1, somes_map. auto. Qed.

  Lemma sound_consume : forall m pop used k, sound m pop used -> used + k <= pop ->
    sound m pop (used + k) /\ sview m pop (used + k) = skipn k (sview m pop used).
  Proof.
    intros m pop used k (Hu & Hp & Hs) Hk. apply sound_intro; try lia.
    unfold slice in *. replace (used + k) with (k + used) by lia. rewrite <- skipn_skipn.
    replace (pop - (k + used)) with ((pop - used) - k) by lia. rewrite firstn_skipn_comm.
    replace (k + (pop - used - k)) with (pop - used) by lia. rewrite Hs. rewrite skipn_map. reflexivity.
  Qed.

  Lemma sound_fill : forall m pop used w k, sound m pop used -> k <= length m - pop ->
    (exists c, length c = k /\ writes w c) ->
    let m' := firstn pop m ++ overwrite w (skipn pop m) in
    length m' = length m /\ sound m' (pop + k) used /\ sview m' (pop + k) used = sview m pop used ++ delivered w k.
  Proof.
    intros m pop used w k (Hu & Hp & Hs) Hk (c & Hc & Hw) m'.
    assert (Hl : length m' = length m).
    { unfold m'. rewrite app_length, overwrite_length, firstn_length, skipn_length. lia. }
    split; [assumption|]. apply sound_intro; try lia.
    unfold slice, m' in *. rewrite skipn_app, firstn_length. replace (used - Nat.min pop (length m)) with 0 by lia. cbn [skipn].
    rewrite firstn_app, skipn_length, firstn_length.
    replace (pop + k - used - (Nat.min pop (length m) - used)) with k by lia.
    rewrite List.map_app. f_equal.
    - rewrite firstn_all2 by (rewrite skipn_length, firstn_length; lia).
      rewrite skipn_firstn_comm. exact Hs.
    - subst k. rewrite delivered_writes by assumption. apply overwrite_writes; [assumption|]. rewrite skipn_length. exact Hk.
  Qed.

  (** Failing reads may have written beyond [pop]. *)
  Lemma sound_failed : forall m pop used w, sound m pop used ->
    let m' := firstn pop m ++ overwrite w (skipn pop m) in
    length m' = length m /\ sound m' pop used /\ sview m' pop used = sview m pop used.
  Proof.
    intros m pop used w H m'. destruct (@sound_fill m pop used w 0 H) as (Hl & Hs & Hv); [lia|exists []; split; reflexivity|].
    replace (pop + 0) with pop in * by lia. fold m' in Hl, Hs, Hv. split; [assumption|]. split; [assumption|]. rewrite Hv. unfold delivered. simpl. apply app_nil_r.
  Qed.

  Lemma sound_move : forall m pop used, sound m pop used -> exists m', copy_down m used (pop - used) = Done m' /\
    length m' = length m /\ sound m' (pop - used) 0 /\ sview m' (pop - used) 0 = sview m pop used.
  Proof.
    intros m pop used (Hu & Hp & Hs). unfold copy_down. replace (used + (pop - used) <=? length m) with true by (symmetry; apply Nat.leb_le; lia).
    eexists. split; [reflexivity|]. fold (slice m pop used).
    assert (Hl : length (slice m pop used ++ skipn (pop - used) m) = length m) by (rewrite app_length, slice_length, skipn_length by lia; lia).
    split; [exact Hl|]. apply sound_intro; try lia.
    unfold slice at 1. cbn [skipn]. rewrite firstn_app, slice_length by lia. replace (pop - used - 0 - (pop - used)) with 0 by lia. rewrite firstn_O, app_nil_r.
    rewrite firstn_all2 by (rewrite slice_length; lia). exact Hs.
  Qed.

  Lemma sound_grow : forall m m2 pop used, sound m pop used -> sound (m ++ m2) pop used /\ sview (m ++ m2) pop used = sview m pop used.
  Proof.
    intros m m2 pop used (Hu & Hp & Hs). apply sound_intro; [assumption|rewrite app_length; lia|].
    rewrite <- Hs. unfold slice. rewrite skipn_app, firstn_app, skipn_length. replace (pop - used - (length m - used)) with 0 by lia.
    rewrite firstn_O. apply app_nil_r.
  Qed.

  Lemma sound_expose : forall m pop used, sound m pop used -> expose (slice m pop used) = Done (sview m pop used).
  Proof. intros m pop used (Hu & Hp & Hs). rewrite Hs. rewrite expose_map. reflexivity. Qed.
End Mem.

Lemma assert_true : forall c, c = true -> assert c = Done tt.
Proof. intros c H. rewrite H. reflexivity. Qed.

Lemma usize_sub_ok : forall a b, b <= a -> usize_sub a b = Done (a - b).
Proof. intros. unfold usize_sub. replace (b <=? a) with true by (symmetry; apply Nat.leb_le; lia). reflexivity. Qed.

Ltac ok := rewrite assert_true; [cbn [run_bind]|rewrite ?andb_true_iff, ?Nat.leb_le, ?Nat.ltb_lt; try lia].

(** Overwriting the visible part. *)
Lemma sound_write : forall I (m : memory I) pop used l, sound m pop used -> length l = pop - used ->
  let m' := firstn used m ++ List.map Some l ++ skipn pop m in length m' = length m /\ sound m' pop used /\ sview m' pop used = l.
Proof.
  intros I m pop used l (Hu & Hp & Hs) Hl m'.
  assert (Hm : length m' = length m) by (unfold m'; rewrite !app_length, firstn_length, map_length, skipn_length; lia).
  split; [exact Hm|]. apply sound_intro; [assumption|lia|]. unfold slice, m'. rewrite skipn_app, firstn_length.
  replace (used - Nat.min used (length m)) with 0 by lia. rewrite skipn_all2 by (rewrite firstn_length; lia). cbn [app skipn].
  rewrite firstn_app, map_length, Hl, Nat.sub_diag, firstn_O, app_nil_r. apply firstn_all2. rewrite map_length. lia.
Qed.

(** * FixedSizeBuffer *)
Section Fixed.
  Context {I : Type}.
  Variable size : nat.

  Definition fixed_inv (b : fixed I) : Prop := sound (f_mem b) (f_populated b) (f_used b) /\ length (f_mem b) = size.
  Definition fixed_view (b : fixed I) : list I := sview (f_mem b) (f_populated b) (f_used b).
  Definition fixed_room (b : fixed I) : nat := length (f_mem b) - f_populated b.

  Lemma fixed_new : 0 < size -> exists b, fixed_with_size size = Done b /\ fixed_inv b /\ fixed_view b = [] /\ fixed_room b = size.
  Proof.
    intros H. unfold fixed_with_size. ok. eexists. split; [reflexivity|]. unfold fixed_inv, fixed_view, fixed_room. cbn [f_mem f_populated f_used].
    rewrite repeat_length. repeat split; try lia.
  Qed.

  Lemma fixed_queue : queue_like (fixed_ops I) fixed_inv fixed_view fixed_room (fun m => m <= size).
  Proof.
    split; unfold fixed_inv, fixed_view, fixed_room; cbn [fixed_ops op_deref op_len op_consume op_request_space op_fill].
    - intros b [Hs Hl]. unfold fixed_deref. pose proof Hs as (Hu & Hp & _). ok. apply sound_expose. assumption.
    - intros b [Hs Hl]. unfold fixed_len. pose proof Hs as (Hu & Hp & _). rewrite usize_sub_ok by lia. rewrite sview_length by assumption. reflexivity.
    - intros b k [Hs Hl] Hk. rewrite sview_length in Hk by assumption. pose proof Hs as (Hu & Hp & _). unfold fixed_consume. ok.
      eexists. split; [reflexivity|]. cbn [f_mem f_populated f_used]. destruct (@sound_consume _ _ _ _ k Hs) as [H1 H2]; [lia|]. auto.
    - intros b k [Hs Hl]. pose proof Hs as (Hu & Hp & _). unfold fixed_request_space. ok. rewrite usize_sub_ok by lia. cbn [run_bind].
      destruct (Nat.ltb_spec (length (f_mem b) - f_populated b) k) as [Hlt|Hge].
      + rewrite usize_sub_ok by lia. cbn [run_bind]. destruct (sound_move Hs) as (m' & Hc & Hl' & Hs' & Hv'). rewrite Hc. cbn [run_bind].
        eexists. split; [reflexivity|]. cbn [f_mem f_populated f_used]. rewrite Hl', Hl, Hv'. repeat split; auto; try apply Hs'.
        intros j Hj Hf. rewrite sview_length in Hf by assumption. lia.
      + exists b. repeat split; auto; try apply Hs. intros. lia.
    - intros b [Hs Hl]. exists (length (f_mem b) - f_populated b). split; [auto|]. intros St ds s s' w r Ho Hr. pose proof Hs as (Hu & Hp & _). unfold fixed_fill. ok. rewrite Hr. destruct r as [k|e].
      + destruct (Ho _ _ _ _ _ Hr) as (Hk & Hw). destruct (sound_fill Hs Hk Hw) as (Hl' & Hs' & Hv').
        ok. eexists. split; [reflexivity|]. cbn [f_mem f_populated f_used]. rewrite Hl', Hv'. repeat split; auto; try apply Hs'. lia.
      + destruct (@sound_failed _ _ _ _ w Hs) as (Hl' & Hs' & Hv').
        eexists. split; [reflexivity|]. cbn [f_mem f_populated f_used]. rewrite Hl', Hv'. repeat split; auto; try apply Hs'.
    - intros. lia.
  Qed.

  Lemma fixed_writes : forall b l, fixed_inv b -> (length l = length (fixed_view b) -> exists b', fixed_write b l = Done b' /\ fixed_inv b' /\ fixed_view b' = l) /\
    (length l <> length (fixed_view b) -> fixed_write b l = Panicked).
  Proof.
    intros b l Hb. pose proof (q_deref fixed_queue b Hb) as Hd. destruct Hb as [Hs Hl]. cbn [fixed_ops op_deref] in Hd. unfold fixed_write. rewrite Hd. cbn [run_bind].
    split; intros Hlen; [|replace (length l =? length (fixed_view b)) with false by (symmetry; apply Nat.eqb_neq; exact Hlen); reflexivity].
    rewrite Hlen, Nat.eqb_refl. cbn [assert run_bind]. eexists. split; [reflexivity|]. unfold fixed_inv, fixed_view in *. cbn [f_mem f_populated f_used].
    rewrite sview_length in Hlen by assumption. destruct (@sound_write _ _ _ _ l Hs Hlen) as (H1 & H2 & H3). split; [split; [exact H2|congruence]|exact H3].
  Qed.
End Fixed.

(** * GrowingBuffer *)
Section Growing.
  Context {I : Type}.

  (** [cap] is the vector's capacity; it exceeds the length only before the first allocation. *)
  Definition growing_inv (b : growing I) : Prop := sound (g_mem b) (g_populated b) (g_used b) /\ length (g_mem b) <= g_cap b.
  Definition growing_view (b : growing I) : list I := sview (g_mem b) (g_populated b) (g_used b).
  Definition growing_room (b : growing I) : nat := length (g_mem b) - g_populated b.

  Lemma growing_new : forall cap0 alloc limit, let b := growing_with_limit cap0 alloc limit in
    growing_inv b /\ growing_view b = [] /\ growing_room b = 0.
  Proof.
    intros. unfold growing_inv, growing_view, growing_room, sview, sound, slice, b, growing_with_limit. cbn [g_mem g_populated g_used g_cap length].
    repeat split; lia.
  Qed.

  (** What [request_space] does. *)
  Lemma growing_request_spec : forall (b : growing I) k, growing_inv b ->
    exists b', growing_request_space b k = Done b' /\ growing_inv b' /\ growing_view b' = growing_view b /\ g_limit b' = g_limit b /\
      g_alloc b' = g_alloc b /\
      (g_cap b = length (g_mem b) -> g_cap b' = length (g_mem b')) /\
      (g_cap b = length (g_mem b) -> g_limit b = 0 \/ g_cap b <= g_limit b -> k <= growing_room b') /\
      (g_limit b <> 0 -> g_limit b < g_cap b -> b' = b) /\
      (g_cap b' = g_cap b \/ g_cap b < k + length (growing_view b)) /\
      (k + length (growing_view b) <= g_cap b -> length (g_mem b') = length (g_mem b)).
  Proof.
    intros b k [Hs Hcap]. pose proof Hs as (Hu & Hp & _). unfold growing_request_space.
    assert (Hlen : length (growing_view b) = g_populated b - g_used b) by (apply sview_length; assumption).
    destruct (negb (g_limit b =? 0) && (g_limit b <? g_cap b)) eqn:Hlim.
    { apply andb_true_iff in Hlim. destruct Hlim as [H1 H2]. apply Nat.ltb_lt in H2. apply negb_true_iff, Nat.eqb_neq in H1.
      exists b. split; [reflexivity|]. split; [split; assumption|]. repeat (split; [solve [auto | intros; lia]|]). auto. }
    assert (Hlim' : g_limit b <> 0 -> g_limit b < g_cap b -> False).
    { intros H1 H2. apply Nat.eqb_neq in H1. apply Nat.ltb_lt in H2. rewrite H1, H2 in Hlim. discriminate. }
    unfold growing_len. rewrite usize_sub_ok by lia. cbn [run_bind].
    set (b1 := if g_cap b <? k + (g_populated b - g_used b) then growing_set_len (growing_reserve b k) else b).
    assert (Hb1 : sound (g_mem b1) (g_populated b1) (g_used b1) /\ growing_view b1 = growing_view b /\ g_limit b1 = g_limit b /\
      g_alloc b1 = g_alloc b /\ g_populated b1 = g_populated b /\ g_used b1 = g_used b /\ length (g_mem b1) <= g_cap b1 /\
      ((g_cap b1 = length (g_mem b1) /\ length (g_mem b) + k <= length (g_mem b1) /\ g_cap b < k + (g_populated b - g_used b)) \/
       (b1 = b /\ k + (g_populated b - g_used b) <= g_cap b))).
    { unfold b1. destruct (Nat.ltb_spec (g_cap b) (k + (g_populated b - g_used b))) as [Hlt|Hge].
      - unfold growing_set_len, growing_reserve, growing_view.
        destruct (Nat.leb_spec k (g_cap b - length (g_mem b))); cbn [g_mem g_cap g_populated g_limit g_used g_alloc g_count];
          (match goal with |- context [ g_mem b ++ ?x ] => destruct (@sound_grow _ _ x _ _ Hs) as [H1 H2] end);
          repeat split; auto; try apply H1; try (rewrite app_length, repeat_length; lia); left; rewrite app_length, repeat_length; lia.
      - split; [assumption|]. do 6 (split; [solve [auto]|]). right. auto. }
    clearbody b1. destruct Hb1 as (Hs1 & Hv1 & Hli1 & Hal1 & Hp1 & Hu1 & Hc1 & Hcase).
    rewrite usize_sub_ok by (destruct Hs1 as (? & ? & _); lia). cbn [run_bind].
    destruct (Nat.ltb_spec (length (g_mem b1) - g_populated b1) k) as [Hlt|Hge].
    - rewrite usize_sub_ok by lia. cbn [run_bind]. destruct (sound_move Hs1) as (m' & Hc & Hl' & Hs' & Hv'). rewrite Hc. cbn [run_bind].
      eexists. split; [reflexivity|]. unfold growing_inv, growing_view, growing_room in *. cbn [g_mem g_cap g_populated g_limit g_used g_alloc g_count].
      rewrite Hl', Hv', Hv1. rewrite Hp1, Hu1 in *. destruct Hcase as [(H1 & H2 & H3)|[-> H3]]; repeat split; auto; try apply Hs'; try lia.
    - exists b1. split; [reflexivity|]. unfold growing_inv, growing_view, growing_room in *. rewrite Hv1.
      destruct Hcase as [(H1 & H2 & H3)|[-> H3]]; repeat split; auto; try apply Hs1; try lia.
  Qed.

  Lemma growing_queue_gen : forall (inv : growing I -> Prop) (fits : nat -> Prop),
    (forall b, inv b -> growing_inv b) ->
    (forall b b', inv b -> growing_inv b' -> g_limit b' = g_limit b -> (g_cap b = length (g_mem b) -> g_cap b' = length (g_mem b')) -> inv b') ->
    (forall m m', m' <= m -> fits m -> fits m') ->
    (forall b b' k j, inv b -> growing_request_space b k = Done b' -> j <= k -> fits (length (growing_view b) + j) -> j <= growing_room b') ->
    queue_like (growing_ops I) inv growing_view growing_room fits.
  Proof.
    intros inv fits Hinv Hkeep Hdown Hroom.
    split; cbn [growing_ops op_deref op_len op_consume op_request_space op_fill].
    - intros b Hb. apply Hinv in Hb. destruct Hb as [Hs Hl]. unfold growing_deref. pose proof Hs as (Hu & Hp & _). ok. apply sound_expose. assumption.
    - intros b Hb. apply Hinv in Hb. destruct Hb as [Hs Hl]. unfold growing_len, growing_view. pose proof Hs as (Hu & Hp & _). rewrite usize_sub_ok by lia. rewrite sview_length by assumption. reflexivity.
    - intros b k Hb Hk. destruct (Hinv _ Hb) as [Hs Hl]. unfold growing_view in *. rewrite sview_length in Hk by assumption. pose proof Hs as (Hu & Hp & _). unfold growing_consume. ok.
      eexists. split; [reflexivity|]. destruct (@sound_consume _ _ _ _ k Hs) as [H1 H2]; [lia|]. split.
      + apply Hkeep with b; auto. split; auto.
      + cbn [g_mem g_cap g_populated g_limit g_used g_alloc g_count]. auto.
    - intros b k Hb. destruct (growing_request_spec k (Hinv _ Hb)) as (b' & Hr & Hi & Hv & Hlim & Hal & Hcap & _). exists b'. split; [assumption|].
      split; [apply Hkeep with b; assumption|]. split; [assumption|]. intros j Hj Hf. eapply Hroom; eauto.
    - intros b Hb. exists (length (g_mem b) - g_populated b). split; [auto|]. intros St ds s s' w r Ho Hr. destruct (Hinv _ Hb) as [Hs Hl]. pose proof Hs as (Hu & Hp & _). unfold growing_fill, growing_view, growing_room in *. ok. rewrite Hr. destruct r as [k|e].
      + destruct (Ho _ _ _ _ _ Hr) as (Hk & Hw). destruct (sound_fill Hs Hk Hw) as (Hl' & Hs' & Hv').
        ok. eexists. split; [reflexivity|]. split.
        * apply Hkeep with b; auto; [split; [exact Hs'|]|]; cbn [g_mem g_cap]; lia.
        * cbn [g_mem g_cap g_populated g_limit g_used g_alloc g_count]. rewrite Hl', Hv'. split; [reflexivity|]. lia.
      + destruct (@sound_failed _ _ _ _ w Hs) as (Hl' & Hs' & Hv').
        eexists. split; [reflexivity|]. split.
        * apply Hkeep with b; auto; [split; [exact Hs'|]|]; cbn [g_mem g_cap]; lia.
        * cbn [g_mem g_cap g_populated g_limit g_used g_alloc g_count]. exact Hv'.
    - assumption.
  Qed.

  (** Any limit: no promise about room. *)
  Lemma growing_queue : queue_like (growing_ops I) growing_inv growing_view growing_room (fun _ => False).
  Proof. apply growing_queue_gen; auto. intros. contradiction. Qed.

  Lemma growing_writes : forall b l, growing_inv b -> (length l = length (growing_view b) -> exists b', growing_write b l = Done b' /\ growing_inv b' /\ growing_view b' = l) /\
    (length l <> length (growing_view b) -> growing_write b l = Panicked).
  Proof.
    intros b l Hb. pose proof (q_deref growing_queue b Hb) as Hd. destruct Hb as [Hs Hl]. cbn [growing_ops op_deref] in Hd. unfold growing_write. rewrite Hd. cbn [run_bind].
    split; intros Hlen; [|replace (length l =? length (growing_view b)) with false by (symmetry; apply Nat.eqb_neq; exact Hlen); reflexivity].
    rewrite Hlen, Nat.eqb_refl. cbn [assert run_bind]. eexists. split; [reflexivity|]. unfold growing_inv, growing_view in *. cbn [g_mem g_populated g_used g_cap].
    rewrite sview_length in Hlen by assumption. destruct (@sound_write _ _ _ _ l Hs Hlen) as (H1 & H2 & H3). split; [split; [exact H2|lia]|exact H3].
  Qed.

  (** No limit (and items of non-zero size): room for everything. *)
  Definition growing_inv0 (b : growing I) : Prop := growing_inv b /\ g_limit b = 0 /\ g_cap b = length (g_mem b).
  Lemma growing_queue0 : queue_like (growing_ops I) growing_inv0 growing_view growing_room (fun _ => True).
  Proof.
    apply growing_queue_gen; unfold growing_inv0.
    - intros b H. apply H.
    - intros b b' (H1 & H2 & H3) H4 H5 H6. repeat split; auto; try apply H4. congruence.
    - auto.
    - intros b b' k j (H1 & H2 & H3) Hr Hj _. destruct (growing_request_spec k H1) as (b2 & Hr2 & _ & _ & _ & _ & _ & Hroom & _).
      rewrite Hr in Hr2. inversion Hr2; subst. specialize (Hroom H3 (or_introl H2)). lia.
  Qed.
End Growing.

(** * Histories *)
Section History.
  Context {I B : Type}.
  Variables (ops : buffer_ops I B) (inv : B -> Prop) (view : B -> list I) (room : B -> nat) (fits : nat -> Prop).
  Hypothesis Q : queue_like ops inv view room fits.

  Lemma obeys_logged : forall St (ds : data_source St I), obeys ds -> obeys (logged ds).
  Proof.
    intros St ds H l n l' w k Hr. unfold logged in Hr. cbn [ds_read] in Hr. destruct (ds_read ds (log_state l) n) as [[s' w'] r] eqn:E.
    inversion Hr; subst. exact (H _ _ _ _ _ E).
  Qed.

  Lemma reached_view : forall b0 b got gone, inv b0 -> view b0 = [] -> reached ops b0 b got gone ->
    inv b /\ view b = skipn gone got /\ gone <= length got.
  Proof.
    intros b0 b got gone Hi Hv H. induction H as [|b got gone k b' H IH Hr|b got gone k b' H IH Hk Hr|St ds s s' b got gone b' r H IH Ho Hr].
    - rewrite Hv. auto.
    - destruct IH as (H1 & H2 & H3). destruct (q_request Q b k H1) as (b2 & E & H4 & H5 & _). rewrite Hr in E. inversion E; subst.
      rewrite H5. auto.
    - destruct IH as (H1 & H2 & H3). destruct (q_consume Q b (k:=k) H1) as (b2 & E & H4 & H5); [rewrite H2, skipn_length; lia|].
      rewrite Hr in E. inversion E; subst. rewrite H5, H2, skipn_skipn. rewrite (Nat.add_comm k gone). auto.
    - destruct IH as (H1 & H2 & H3). destruct (q_fill Q b H1) as (m & _ & Hq). destruct (ds_read (logged ds) (mkLog s got false) m) as [[l' w] r'] eqn:E.
      destruct (Hq _ _ _ _ _ _ (obeys_logged Ho) E) as (b2 & E2 & H4 & H5).
      rewrite Hr in E2. inversion E2; subst b2 s' r'. clear E2. unfold logged in E. cbn [ds_read log_state log_items] in E.
      destruct (ds_read ds s m) as [[s1 w1] r1]. inversion E; subst. destruct r as [k|e]; cbn [log_items].
      + destruct H5 as [H5 _]. rewrite H5, H2, skipn_app. replace (gone - length got) with 0 by lia. rewrite app_length. split; [assumption|]. split; [reflexivity|lia].
      + rewrite H5. auto.
  Qed.

  Variable write : B -> list I -> run B.
  Hypothesis W : forall b l, inv b -> (length l = length (view b) -> exists b', write b l = Done b' /\ inv b' /\ view b' = l) /\
    (length l <> length (view b) -> write b l = Panicked).

  Lemma reached_mut_view : forall b0 b got gone, inv b0 -> view b0 = [] -> reached_mut ops write b0 b got gone ->
    inv b /\ view b = skipn gone got /\ gone <= length got.
  Proof.
    intros b0 b got gone Hi Hv H. induction H as [|b got gone k b' H IH Hr|b got gone k b' H IH Hk Hr|St ds s s' b got gone b' r H IH Ho Hr|b got gone l b' H IH Hw].
    - rewrite Hv. auto.
    - destruct IH as (H1 & H2 & H3). destruct (q_request Q b k H1) as (b2 & E & H4 & H5 & _). rewrite Hr in E. inversion E; subst.
      rewrite H5. auto.
    - destruct IH as (H1 & H2 & H3). destruct (q_consume Q b (k:=k) H1) as (b2 & E & H4 & H5); [rewrite H2, skipn_length; lia|].
      rewrite Hr in E. inversion E; subst. rewrite H5, H2, skipn_skipn. rewrite (Nat.add_comm k gone). auto.
    - destruct IH as (H1 & H2 & H3). destruct (q_fill Q b H1) as (m & _ & Hq). destruct (ds_read (logged ds) (mkLog s got false) m) as [[l' w] r'] eqn:E.
      destruct (Hq _ _ _ _ _ _ (obeys_logged Ho) E) as (b2 & E2 & H4 & H5).
      rewrite Hr in E2. inversion E2; subst b2 s' r'. clear E2. unfold logged in E. cbn [ds_read log_state log_items] in E.
      destruct (ds_read ds s m) as [[s1 w1] r1]. inversion E; subst. destruct r as [k|e]; cbn [log_items].
      + destruct H5 as [H5 _]. rewrite H5, H2, skipn_app. replace (gone - length got) with 0 by lia. rewrite app_length. split; [assumption|]. split; [reflexivity|lia].
      + rewrite H5. auto.
    - destruct IH as (H1 & H2 & H3). destruct (@W b l H1) as [Wy Wn]. destruct (Nat.eq_dec (length l) (length (view b))) as [Hl|Hl]; [|rewrite (Wn Hl) in Hw; discriminate].
      destruct (Wy Hl) as (b2 & E & H4 & H5). rewrite Hw in E. inversion E; subst b2. split; [assumption|]. rewrite app_length, firstn_length. split; [|lia].
      rewrite H5, skipn_app, firstn_length. replace (gone - Nat.min gone (length got)) with 0 by lia. rewrite skipn_all2 by (rewrite firstn_length; lia). reflexivity.
  Qed.
End History.
