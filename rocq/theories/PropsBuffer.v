(** Property theorems C27, C28 (buffers), C29, C39. *)
From Coq Require Import List Bool Arith Lia.
From Verif Require Import Base Buffer SpecBuffer Stream SpecStream BufferProofs StreamProofs SimProofs.
Import ListNotations.

(** * C27 *)
Section General.
  Context {I B : Type}.
  Variables (ops : buffer_ops I B) (inv : B -> Prop) (view : B -> list I) (room : B -> nat) (fits : nat -> Prop).
  Hypothesis Q : queue_like ops inv view room fits.

  Lemma reached_progress : forall b0 b got gone, inv b0 -> view b0 = [] -> reached ops b0 b got gone ->
    op_deref ops b = Done (skipn gone got) /\ op_len ops b = Done (length got - gone) /\ gone <= length got /\
    (forall k, exists b', op_request_space ops b k = Done b') /\
    (forall k, gone + k <= length got -> exists b', op_consume ops b k = Done b') /\
    (forall St (ds : data_source St I) s, obeys ds -> exists b' s' r, op_fill ops ds b s = Done (b', s', r)).
  Proof.
    intros b0 b got gone Hi Hv H. destruct (reached_view Q Hi Hv H) as (Hib & Hvb & Hg).
    split; [rewrite (q_deref Q _ Hib), Hvb; reflexivity|]. split; [rewrite (q_len Q _ Hib), Hvb, skipn_length; reflexivity|]. split; [assumption|].
    split; [|split].
    - intros k. destruct (q_request Q _ k Hib) as (b' & E & _). eauto.
    - intros k Hk. destruct (q_consume Q _ (k := k) Hib) as (b' & E & _); [rewrite Hvb, skipn_length; lia|eauto].
    - intros St ds s Ho. destruct (q_fill Q _ Hib) as (m & _ & Hq). destruct (ds_read ds s m) as [[s' w] r] eqn:E. destruct (Hq _ _ _ _ _ _ Ho E) as (b' & E' & _). eauto.
  Qed.
End General.

Theorem C27_fixed : forall I size b0 b (got : list I) gone, fixed_with_size size = Done b0 -> reached (fixed_ops I) b0 b got gone ->
  f_used b <= f_populated b /\ f_populated b <= length (f_mem b) /\ length (f_mem b) = size /\
  fixed_deref b = Done (skipn gone got) /\ fixed_len b = Done (length got - gone) /\ gone <= length got /\
  (forall k, exists b', fixed_request_space b k = Done b') /\
  (forall k, gone + k <= length got -> exists b', fixed_consume b k = Done b') /\
  (forall St (ds : data_source St I) s, obeys ds -> exists b' s' r, fixed_fill ds b s = Done (b', s', r)).
Proof.
  intros I size b0 b got gone Hnew H. unfold fixed_with_size in Hnew. destruct (Nat.ltb_spec 0 size) as [Hs|Hs]; cbn in Hnew; [|discriminate].
  destruct (@fixed_new I size Hs) as (b1 & E & Hi & Hv & _). unfold fixed_with_size in E. replace (0 <? size) with true in E by (symmetry; apply Nat.ltb_lt; assumption).
  cbn in E. rewrite E in Hnew. inversion Hnew; subst b1.
  destruct (reached_view (fixed_queue size) Hi Hv H) as ((Hsound & Hl) & _). destruct Hsound as (Hu & Hp & _).
  split; [assumption|]. split; [assumption|]. split; [assumption|]. exact (reached_progress (fixed_ops I) _ _ _ _ (fixed_queue size) b0 b got gone Hi Hv H).
Qed.
Theorem C27_growing : forall I cap0 alloc limit b (got : list I) gone, reached (growing_ops I) (growing_with_limit cap0 alloc limit) b got gone ->
  g_used b <= g_populated b /\ g_populated b <= length (g_mem b) /\ length (g_mem b) <= g_cap b /\
  growing_deref b = Done (skipn gone got) /\ growing_len b = Done (length got - gone) /\ gone <= length got /\
  (forall k, exists b', growing_request_space b k = Done b') /\
  (forall k, gone + k <= length got -> exists b', growing_consume b k = Done b') /\
  (forall St (ds : data_source St I) s, obeys ds -> exists b' s' r, growing_fill ds b s = Done (b', s', r)).
Proof.
  intros I cap0 alloc limit b got gone H. destruct (@growing_new I cap0 alloc limit) as (Hi & Hv & _).
  destruct (reached_view growing_queue Hi Hv H) as ((Hsound & Hl) & _). destruct Hsound as (Hu & Hp & _).
  split; [assumption|]. split; [assumption|]. split; [assumption|]. exact (reached_progress (growing_ops I) _ _ _ _ growing_queue _ b got gone Hi Hv H).
Qed.
(** One failing read: nothing visible changes, although the reader may have scribbled on the slice. *)
Theorem C27_failed_read : forall I St (ds : data_source St I) size b0 b (got : list I) gone s s' x b', fixed_with_size size = Done b0 ->
  reached (fixed_ops I) b0 b got gone -> obeys ds -> fixed_fill ds b s = Done (b', s', IoErr x) -> fixed_deref b' = Done (skipn gone got).
Proof.
  intros I St ds size b0 b got gone s s' x b' Hnew H Ho Hf.
  assert (Hl : exists s'', fixed_fill (logged ds) b (mkLog s got false) = Done (b', s'', IoErr x) /\ log_items s'' = got).
  { unfold fixed_fill in *. destruct (f_populated b <=? length (f_mem b)); cbn [assert run_bind] in *; [|discriminate]. unfold logged. cbn [ds_read log_state].
    destruct (ds_read ds s (length (f_mem b) - f_populated b)) as [[s1 w] [k|y]].
    - destruct (assert _); cbn [run_bind] in Hf; discriminate.
    - inversion Hf; subst. eexists. split; reflexivity. }
  destruct Hl as (s'' & Hl & Hg). assert (H2 : reached (fixed_ops I) b0 b' (log_items s'') gone) by (eapply r_fill; [exact H|exact Ho|exact Hl]).
  rewrite Hg in H2. exact (proj1 (proj2 (proj2 (proj2 (C27_fixed _ _ _ _ _ _ Hnew H2))))).
Qed.
(** With writes through [deref_mut] in between: the items are those last written to their place, and writing works exactly when as many
    items are supplied as are visible. *)
Theorem C27_fixed_mut : forall I size b0 b (got : list I) gone, fixed_with_size size = Done b0 -> reached_mut (fixed_ops I) fixed_write b0 b got gone ->
  f_used b <= f_populated b /\ f_populated b <= length (f_mem b) /\ length (f_mem b) = size /\
  fixed_deref b = Done (skipn gone got) /\ fixed_len b = Done (length got - gone) /\ gone <= length got /\
  (forall l, length l = length got - gone -> exists b', fixed_write b l = Done b' /\ fixed_deref b' = Done l /\ f_populated b' = f_populated b /\ f_used b' = f_used b) /\
  (forall l, length l <> length got - gone -> fixed_write b l = Panicked).
Proof.
  intros I size b0 b got gone Hnew H. unfold fixed_with_size in Hnew. destruct (Nat.ltb_spec 0 size) as [Hs|Hs]; cbn in Hnew; [|discriminate].
  destruct (@fixed_new I size Hs) as (b1 & E & Hi & Hv & _). unfold fixed_with_size in E. replace (0 <? size) with true in E by (symmetry; apply Nat.ltb_lt; assumption).
  cbn in E. inversion Hnew; inversion E; subst. destruct (reached_mut_view (fixed_queue size) (@fixed_writes I size) Hi Hv H) as (Hb & Hview & Hg).
  pose proof Hb as ((Hu & Hp & Hw) & Hl). pose proof (q_deref (fixed_queue size) b Hb) as Hd. pose proof (q_len (fixed_queue size) b Hb) as Hn. cbn [fixed_ops op_deref op_len] in Hd, Hn.
  rewrite Hview in Hd, Hn. rewrite skipn_length in Hn. repeat (split; [assumption|]). split; intros l Hlen.
  - destruct (proj1 (fixed_writes l Hb)) as (b' & Ew & Hb' & Hv'); [rewrite Hview, skipn_length; exact Hlen|]. exists b'. split; [exact Ew|].
    pose proof (q_deref (fixed_queue size) b' Hb') as Hd'. cbn [fixed_ops op_deref] in Hd'. rewrite Hv' in Hd'. split; [exact Hd'|].
    unfold fixed_write in Ew. rewrite Hd in Ew. cbn [run_bind] in Ew. destruct (assert _); cbn [run_bind] in Ew; inversion Ew; subst; split; reflexivity.
  - apply (proj2 (fixed_writes l Hb)). rewrite Hview, skipn_length. exact Hlen.
Qed.
Theorem C27_growing_mut : forall I cap0 alloc limit b (got : list I) gone, reached_mut (growing_ops I) growing_write (growing_with_limit cap0 alloc limit) b got gone ->
  g_used b <= g_populated b /\ g_populated b <= length (g_mem b) /\ length (g_mem b) <= g_cap b /\
  growing_deref b = Done (skipn gone got) /\ growing_len b = Done (length got - gone) /\ gone <= length got /\
  (forall l, length l = length got - gone -> exists b', growing_write b l = Done b' /\ growing_deref b' = Done l /\ g_populated b' = g_populated b /\ g_used b' = g_used b) /\
  (forall l, length l <> length got - gone -> growing_write b l = Panicked).
Proof.
  intros I cap0 alloc limit b got gone H. destruct (@growing_new I cap0 alloc limit) as (Hi & Hv & _).
  destruct (reached_mut_view growing_queue (@growing_writes I) Hi Hv H) as (Hb & Hview & Hg).
  pose proof Hb as ((Hu & Hp & Hw) & Hl). pose proof (q_deref growing_queue b Hb) as Hd. pose proof (q_len growing_queue b Hb) as Hn. cbn [growing_ops op_deref op_len] in Hd, Hn.
  rewrite Hview in Hd, Hn. rewrite skipn_length in Hn. repeat (split; [assumption|]). split; intros l Hlen.
  - destruct (proj1 (growing_writes l Hb)) as (b' & Ew & Hb' & Hv'); [rewrite Hview, skipn_length; exact Hlen|]. exists b'. split; [exact Ew|].
    pose proof (q_deref growing_queue b' Hb') as Hd'. cbn [growing_ops op_deref] in Hd'. rewrite Hv' in Hd'. split; [exact Hd'|].
    unfold growing_write in Ew. rewrite Hd in Ew. cbn [run_bind] in Ew. destruct (assert _); cbn [run_bind] in Ew; inversion Ew; subst; split; reflexivity.
  - apply (proj2 (growing_writes l Hb)). rewrite Hview, skipn_length. exact Hlen.
Qed.
Print Assumptions C27_fixed_mut.
Print Assumptions C27_growing_mut.
Print Assumptions C27_fixed.
Print Assumptions C27_growing.
Print Assumptions C27_failed_read.

(** Concrete buffer use: three reads, two moves, wrapped around. *)
Definition demo_source : data_source (list (option (list nat))) nat := read_data_source chunk_read.
Lemma demo_obeys : obeys demo_source.
Proof. apply chunk_obeys. Qed.
Ltac do_fill H sched := eapply (fun a b c s s' b' r x => @r_fill _ _ _ _ _ demo_source s s' a b c b' r x demo_obeys) with (s := sched) in H; [|vm_compute; reflexivity]; cbn [log_items] in H.
Ltac do_request H n := eapply r_request with (k := n) in H; [|vm_compute; reflexivity].
Ltac do_consume H n := eapply r_consume with (k := n) in H; [|cbn; lia|vm_compute; reflexivity]; cbn [Nat.add] in H.
Example C27_case : exists b0 b, fixed_with_size 4 = Done b0 /\ reached (fixed_ops nat) b0 b [1; 2; 3; 4; 5; 6] 3 /\
  fixed_deref b = Done [4; 5; 6] /\ f_mem b = [Some 4; Some 5; Some 6; Some 4].
Proof.
  destruct (@fixed_new nat 4) as (b0 & E & _); [lia|]. exists b0. vm_compute in E. inversion E; subst b0.
  pose proof (r_new (fixed_ops nat) (mkFixed [None; None; None; None] 0 0)) as H.
  do_fill H ([Some [1; 2; 3; 4]]). do_consume H 3. do_request H 2. do_fill H ([Some [5; 6]]).
  eexists. split; [reflexivity|]. split; [exact H|]. split; reflexivity.
Qed.
Example C27_growing_case : exists b, reached (growing_ops nat) (growing_with_limit 0 (fun _ => 1) 0) b [1; 2; 3] 1 /\ growing_deref b = Done [2; 3].
Proof.
  pose proof (r_new (growing_ops nat) (growing_with_limit 0 (fun _ => 1) 0)) as H.
  do_request H 3. do_fill H ([Some [1; 2; 3]]). do_consume H 1. eexists. split; [exact H|]. reflexivity.
Qed.
(** A read that fails. *)
Example C27_failed_case : exists b0 b b', fixed_with_size 4 = Done b0 /\ reached (fixed_ops nat) b0 b [1; 2; 3] 1 /\
  fixed_fill demo_source b [None; Some [4]] = Done (b', [Some [4]], IoErr 0) /\ fixed_deref b' = Done [2; 3].
Proof.
  destruct (@fixed_new nat 4) as (b0 & E & _); [lia|]. exists b0. vm_compute in E. inversion E; subst b0.
  pose proof (r_new (fixed_ops nat) (mkFixed [None; None; None; None] 0 0)) as H.
  do_fill H ([Some [1; 2; 3]]). do_consume H 1. eexists. eexists. split; [reflexivity|]. split; [exact H|]. split; vm_compute; reflexivity.
Qed.
(** Two of the three visible items are left after consuming; they are overwritten, moved down and read again. *)
Example C27_mut_case : exists b0 b, fixed_with_size 4 = Done b0 /\ reached_mut (fixed_ops nat) fixed_write b0 b [1; 8; 9] 1 /\
  fixed_deref b = Done [8; 9] /\ f_mem b = [Some 8; Some 9; Some 9; None].
Proof.
  destruct (@fixed_new nat 4) as (b0 & E & _); [lia|]. exists b0. vm_compute in E. inversion E; subst b0.
  pose proof (rm_new (fixed_ops nat) fixed_write (mkFixed [None; None; None; None] 0 0)) as H.
  eapply (fun a b c s s' b' r x => @rm_fill _ _ _ _ _ _ demo_source s s' a b c b' r x demo_obeys) with (s := [Some [1; 2; 3]]) in H; [|vm_compute; reflexivity]; cbn [log_items] in H.
  eapply rm_consume with (k := 1) in H; [|cbn; lia|vm_compute; reflexivity]; cbn [Nat.add] in H.
  eapply rm_write with (l := [8; 9]) in H; [|vm_compute; reflexivity].
  eapply rm_request with (k := 2) in H; [|vm_compute; reflexivity].
  eexists. split; [reflexivity|]. split; [exact H|]. split; reflexivity.
Qed.

(** * C28, for buffers *)
Theorem C28_fixed : forall I size b0 b (got : list I) gone, fixed_with_size size = Done b0 -> reached (fixed_ops I) b0 b got gone ->
  fixed_deref b <> Undefined /\ (forall k, fixed_request_space b k <> Undefined) /\ (forall k, fixed_consume b k <> Undefined) /\
  (forall St (ds : data_source St I) s, fixed_fill ds b s <> Undefined).
Proof.
  intros I size b0 b got gone Hnew H. destruct (C27_fixed _ _ _ _ _ _ Hnew H) as (H1 & H2 & H3 & H4 & _ & _ & H5 & _).
  split; [congruence|]. split; [intros k; destruct (H5 k); congruence|]. split.
  - intros k. unfold fixed_consume. destruct (_ <=? _); discriminate.
  - intros St ds s. unfold fixed_fill. destruct (_ <=? _); cbn; [|discriminate]. destruct (ds_read ds s _) as [[s' w] [n|e]]; [|discriminate]. destruct (assert _) eqn:E; try discriminate.
    unfold assert in E. destruct (_ <=? _); discriminate.
Qed.
Theorem C28_growing : forall I cap0 alloc limit b (got : list I) gone, reached (growing_ops I) (growing_with_limit cap0 alloc limit) b got gone ->
  growing_deref b <> Undefined /\ (forall k, growing_request_space b k <> Undefined) /\ (forall k, growing_consume b k <> Undefined) /\
  (forall St (ds : data_source St I) s, growing_fill ds b s <> Undefined).
Proof.
  intros I cap0 alloc limit b got gone H. destruct (C27_growing _ _ _ _ _ _ _ H) as (H1 & H2 & H3 & H4 & _ & _ & H5 & _).
  split; [congruence|]. split; [intros k; destruct (H5 k); congruence|]. split.
  - intros k. unfold growing_consume. destruct (_ <=? _); discriminate.
  - intros St ds s. unfold growing_fill. destruct (_ <=? _); cbn; [|discriminate]. destruct (ds_read ds s _) as [[s' w] [n|e]]; [|discriminate]. destruct (assert _) eqn:E; try discriminate.
    unfold assert in E. destruct (_ <=? _); discriminate.
Qed.
(** The proviso is needed: safe code can write a reader that claims more than it wrote, and its items become visible. *)
Definition lying_source : data_source unit nat := mkDataSource (fun s n => (s, [], IoOk (Nat.min 1 n))).
Theorem C28_lying_source_refuted : exists b0 b s', fixed_with_size 4 = Done b0 /\ fixed_fill lying_source b0 tt = Done (b, s', IoOk 1) /\
  fixed_deref b = Undefined.
Proof. eexists. eexists. eexists. split; [reflexivity|]. split; reflexivity. Qed.
Print Assumptions C28_fixed.
Print Assumptions C28_growing.
Print Assumptions C28_lying_source_refuted.
(** A buffer whose memory holds items no longer visible, as in [C27_case]: asked for more than it can hold, for more than is visible, and filled. *)
Example C28_case : exists b0 b, fixed_with_size 4 = Done b0 /\ reached (fixed_ops nat) b0 b [1; 2; 3; 4; 5; 6] 3 /\
  (exists b', fixed_request_space b 9 = Done b') /\ fixed_consume b 4 = Panicked /\ (exists b' s', fixed_fill demo_source b [Some [7; 8]] = Done (b', s', IoOk 1)).
Proof.
  destruct (@fixed_new nat 4) as (b0 & E & _); [lia|]. exists b0. vm_compute in E. inversion E; subst b0.
  pose proof (r_new (fixed_ops nat) (mkFixed [None; None; None; None] 0 0)) as H.
  do_fill H ([Some [1; 2; 3; 4]]). do_consume H 3. do_request H 2. do_fill H ([Some [5; 6]]).
  eexists. split; [reflexivity|]. split; [exact H|]. split; [eexists; vm_compute; reflexivity|]. split; [vm_compute; reflexivity|]. eexists. eexists. vm_compute. reflexivity.
Qed.

(** * C29 *)
Theorem C29_fixed : forall I size b0 b (got : list I) gone k b', fixed_with_size size = Done b0 -> reached (fixed_ops I) b0 b got gone ->
  fixed_request_space b k = Done b' ->
  (k <= length (f_mem b') - f_populated b' <-> (length got - gone) + k <= size) /\ fixed_capacity b' = size.
Proof.
  intros I size b0 b got gone k b' Hnew H Hr. assert (H2 : reached (fixed_ops I) b0 b' got gone) by (eapply r_request; eauto).
  destruct (C27_fixed _ _ _ _ _ _ Hnew H) as (H3 & H4 & H5 & _ & H6 & _). destruct (C27_fixed _ _ _ _ _ _ Hnew H2) as (G3 & G4 & G5 & _ & G6 & _).
  unfold fixed_len in *. rewrite usize_sub_ok in * by lia. inversion H6. inversion G6. split; [|exact G5]. split; [lia|]. intros Hfit.
  unfold fixed_request_space in Hr. replace (f_used b <=? f_populated b) with true in Hr by (symmetry; apply Nat.leb_le; lia). cbn [assert run_bind] in Hr.
  rewrite usize_sub_ok in Hr by lia. cbn [run_bind] in Hr. destruct (Nat.ltb_spec (length (f_mem b) - f_populated b) k).
  - rewrite usize_sub_ok in Hr by lia. cbn [run_bind] in Hr. unfold copy_down in Hr. destruct (_ <=? _); cbn [run_bind] in Hr; inversion Hr; subst b'. cbn [f_mem f_populated f_used] in *. lia.
  - inversion Hr; subst. lia.
Qed.
Theorem C29_growing : forall I alloc b (got : list I) gone k b', reached (growing_ops I) (growing_with_limit 0 alloc 0) b got gone ->
  growing_request_space b k = Done b' ->
  k <= length (g_mem b') - g_populated b' /\ growing_capacity b <= growing_capacity b'.
Proof.
  intros I alloc b got gone k b' H Hr. destruct (@growing_new I 0 alloc 0) as (Hi & Hv & _).
  destruct (reached_view growing_queue0 (b0 := growing_with_limit 0 alloc 0) (conj Hi (conj eq_refl eq_refl)) Hv H) as ((Hib & Hlim & Hcap) & _).
  destruct (growing_request_spec k Hib) as (b2 & E & _ & _ & _ & _ & G1 & G2 & _ & G4 & G5). rewrite Hr in E. inversion E; subst b2.
  split; [exact (G2 Hcap (or_introl Hlim))|]. unfold growing_capacity. specialize (G1 Hcap). specialize (G2 Hcap (or_introl Hlim)).
  destruct G4 as [G4|G4]; [lia|].
  unfold growing_request_space in Hr. rewrite Hlim in Hr. cbn [Nat.eqb negb andb] in Hr. destruct Hib as [Hs _]. pose proof Hs as (Hu & Hp & _).
  assert (Hlen : length (growing_view b) = g_populated b - g_used b) by (apply sview_length; assumption).
  unfold growing_len in Hr. rewrite usize_sub_ok in Hr by lia. cbn [run_bind] in Hr. replace (g_cap b <? k + (g_populated b - g_used b)) with true in Hr by (symmetry; apply Nat.ltb_lt; lia).
  unfold growing_reserve in Hr. replace (k <=? g_cap b - length (g_mem b)) with false in Hr by (symmetry; apply Nat.leb_gt; lia).
  unfold growing_set_len in Hr. cbn [g_mem g_cap g_populated g_limit g_used g_alloc g_count] in Hr. rewrite usize_sub_ok in Hr by (rewrite app_length; lia). cbn [run_bind] in Hr.
  rewrite app_length, repeat_length in Hr. destruct (Nat.ltb_spec (length (g_mem b) + (length (g_mem b) + k + g_alloc b (g_count b) - length (g_mem b)) - g_populated b) k); [lia|].
  inversion Hr; subst b'. cbn [g_mem]. rewrite app_length. lia.
Qed.
(** With a limit: as long as the capacity is within it there is room; once it exceeds it, the buffer is not touched any more. *)
Theorem C29_limited : forall I alloc limit b (got : list I) gone k b', 0 < limit -> reached (growing_ops I) (growing_with_limit 0 alloc limit) b got gone ->
  growing_request_space b k = Done b' ->
  (growing_capacity b <= limit -> k <= length (g_mem b') - g_populated b') /\ (limit < growing_capacity b -> b' = b).
Proof.
  intros I alloc limit b got gone k b' Hl0 H Hr. destruct (@growing_new I 0 alloc limit) as (Hi & Hv & _).
  assert (Q : queue_like (growing_ops I) (fun b => growing_inv b /\ g_limit b = limit /\ g_cap b = length (g_mem b)) growing_view growing_room (fun _ => False)).
  { apply growing_queue_gen.
    - intros x Hx. apply Hx.
    - intros x y (H1 & H2 & H3) H4 H5 H6. repeat split; auto; try apply H4. congruence.
    - auto.
    - contradiction. }
  destruct (reached_view Q (b0 := growing_with_limit 0 alloc limit) (conj Hi (conj eq_refl eq_refl)) Hv H) as ((Hib & Hlim & Hcap) & _).
  destruct (growing_request_spec k Hib) as (b2 & E & _ & _ & _ & _ & G1 & G2 & G3 & _). rewrite Hr in E. inversion E; subst b2. unfold growing_capacity. rewrite <- Hcap. split.
  - intros Hle. apply (G2 Hcap). right. lia.
  - intros Hlt. apply G3; lia.
Qed.
(** ... not even when all its data has been consumed: room that exists is not made available. *)
Theorem C29_over_limit_refuted : exists b, reached (growing_ops nat) (growing_with_limit 0 (fun _ => 0) 1) b [1; 2] 2 /\
  growing_capacity b = 2 /\ growing_deref b = Done [] /\ forall k, growing_request_space b k = Done b /\ length (g_mem b) - g_populated b = 0.
Proof.
  pose proof (r_new (growing_ops nat) (growing_with_limit 0 (fun _ => 0) 1)) as H.
  do_request H 2. do_fill H ([Some [1; 2]]). do_consume H 2. eexists. split; [exact H|]. repeat split.
Qed.
(** The limit does not bound the capacity: any single request is granted. *)
Theorem C29_limit_exceeded_refuted : forall I alloc limit k b', growing_request_space (growing_with_limit (I := I) 0 alloc limit) k = Done b' -> k <= growing_capacity b'.
Proof.
  intros I alloc limit k b' H. destruct (@growing_new I 0 alloc limit) as (Hi & _).
  destruct (growing_request_spec k Hi) as (b2 & E & _ & _ & _ & _ & _ & G & _). rewrite H in E. inversion E; subst b2. unfold growing_room in G.
  specialize (G eq_refl). cbn in G. unfold growing_capacity. assert (k <= length (g_mem b') - g_populated b'); [apply G; lia|lia].
Qed.
(** Zero-sized items: [Vec::new()] has capacity [cap0 = usize::MAX], so nothing is ever "allocated", and there never is any room. *)
Theorem C29_zero_sized_refuted : forall I cap0 alloc k, k <= cap0 -> let b := growing_with_limit (I := I) cap0 alloc 0 in
  growing_request_space b k = Done b /\ length (g_mem b) - g_populated b = 0.
Proof.
  intros I cap0 alloc k Hk b. split; [|reflexivity]. unfold growing_request_space, b, growing_with_limit, growing_len. cbn [g_limit g_cap g_populated g_used g_mem Nat.eqb negb andb usize_sub Nat.leb Nat.sub run_bind length].
  replace (cap0 <? k + 0) with false by (symmetry; apply Nat.ltb_ge; lia). cbn [g_limit g_cap g_populated g_used g_mem length usize_sub Nat.leb Nat.sub run_bind].
  destruct k; reflexivity.
Qed.
Print Assumptions C29_fixed.
Print Assumptions C29_growing.
Print Assumptions C29_limited.
Print Assumptions C29_over_limit_refuted.
Print Assumptions C29_limit_exceeded_refuted.
Print Assumptions C29_zero_sized_refuted.
(** Examples for the hypotheses: C27_case and C27_growing_case reach the states; here a limit is met, then exceeded. *)
Example C29_case : exists b b', reached (growing_ops nat) (growing_with_limit 0 (fun _ => 0) 5) b [] 0 /\ growing_capacity b = 3 /\
  growing_request_space b 4 = Done b' /\ growing_capacity b' = 7.
Proof.
  pose proof (r_new (growing_ops nat) (growing_with_limit 0 (fun _ => 0) 5)) as H. do_request H 3.
  eexists. eexists. split; [exact H|]. repeat split.
Qed.

(** * C39 *)
Theorem C39_read : forall It I (next : It -> option I * It) s k s' w r, ds_read (iter_data_source next) s k = (s', w, r) ->
  exists c it1, r = IoOk (length c) /\ w = List.map Some c /\ yields next s c it1 /\ length c <= k /\
    ((length c = k /\ s' = it1) \/ (length c < k /\ next it1 = (None, s'))).
Proof.
  intros It I next s k s' w r H. unfold iter_data_source in H. cbn [ds_read] in H. destruct (iter_read next k s) as [[s1 w1] n] eqn:E. inversion H; subst.
  destruct (iter_read_spec next _ _ E) as (H1 & c & it1 & H2 & H3 & H4 & H5). subst. exists c, it1. repeat split; auto.
Qed.
Theorem C39_zero : forall It I (next : It -> option I * It) s k s' w, ds_read (iter_data_source next) s k = (s', w, IoOk 0) ->
  k = 0 \/ next s = (None, s').
Proof.
  intros It I next s k s' w H. destruct (C39_read _ _ _ _ _ _ _ _ H) as (c & it1 & H1 & H2 & H3 & H4 & H5). inversion H1 as [Hc]. symmetry in Hc. apply length_zero_iff_nil in Hc. subst c.
  inversion H3; subst. destruct H5 as [[H5 _]|[_ H5]]; [left; cbn in H5; lia|right; assumption].
Qed.
(** Any sequence of reads: the iterator's items in order. *)
Fixpoint read_all {It I} (next : It -> option I * It) (ks : list nat) (s : It) : It * list I :=
  match ks with
  | [] => (s, [])
  | k :: ks =>
      let '(s, w, r) := ds_read (iter_data_source next) s k in
      let '(s, l) := read_all next ks s in
      (s, match r with IoOk n => delivered w n | IoErr _ => [] end ++ l)
  end.
Theorem C39_sequence : forall It I (next : It -> option I * It) ks s d e, exactly next s d e ->
  snd (read_all next ks s) = firstn (fold_right Nat.add 0 ks) d.
Proof.
  intros It I next ks. induction ks as [|k ks IH]; intros s d e Hd; [reflexivity|].
  cbn [read_all fold_right]. destruct (ds_read (iter_data_source next) s k) as [[s1 w] r] eqn:E.
  pose proof (iter_delivers Hd k E) as HR. destruct (C39_read _ _ _ _ _ _ _ _ E) as (c0 & it1 & -> & _ & H3 & _ & H5). destruct HR as (H6 & c & d' & -> & H8 & H9 & H10 & _).
  specialize (IH _ _ _ H10). destruct (read_all next ks s1) as [s2 l]. cbn [snd] in *. rewrite IH, <- H8, (delivered_writes H9).
  destruct (Nat.eq_dec (length c) k) as [Hk|Hk].
  - rewrite <- Hk, firstn_app_2. reflexivity.
  - assert (Hd0 : d' = []).
    { destruct H5 as [[H5 _]|[H5 H7]]; [lia|]. destruct Hd as (it' & P & Hy & HP & Hend). destruct (Hend _ HP) as (z & Hz & _).
      destruct (yields_split Hy H3) as (d2 & Hd2 & Hy2); [eauto|]. assert (length d2 = length d'). { apply (f_equal (@length _)) in Hd2. rewrite !app_length in Hd2. lia. }
      inversion Hy2 as [y|y j it4 c' it5 Hn2 Hc2]; subst; [destruct d'; [reflexivity|discriminate]|]. rewrite H7 in Hn2. discriminate. }
    subst d'. rewrite firstn_nil, !app_nil_r. rewrite firstn_all2 by lia. reflexivity.
Qed.
Print Assumptions C39_read.
Print Assumptions C39_zero.
Print Assumptions C39_sequence.
Definition list_next (l : list nat) : option nat * list nat := match l with [] => (None, []) | x :: l => (Some x, l) end.
Example C39_case : exactly list_next [1; 2; 3; 4; 5] [1; 2; 3; 4; 5] 0 /\ ds_read (iter_data_source list_next) [1; 2; 3; 4; 5] 3 = ([4; 5], [Some 1; Some 2; Some 3], IoOk 3) /\
  read_all list_next [2; 0; 2; 2] [1; 2; 3; 4; 5] = ([], [1; 2; 3; 4; 5]).
Proof.
  split; [|split; reflexivity]. exists [], (fun l => l = []). split; [repeat (eapply y_cons; [reflexivity|]); apply y_nil|]. split; [reflexivity|]. intros x ->. exists []. auto.
Qed.
