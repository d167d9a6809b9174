(** Property theorems C44 (caught panics) and C50. *)
From Coq Require Import List Bool Arith Lia.
From Verif Require Import Base Parsers Buffer Stream Word Unwind SpecBuffer SpecWord SpecUnwind BufferProofs WordProofs WordSafeProofs UnwindProofs PropsBuffer.
Import ListNotations.

(** * C44, with panics that are caught *)

Lemma fixed_fresh : forall m I size (b0 : fixed I), w_fixed_with_size m size = Done b0 -> fixed_safe_inv m b0.
Proof.
  intros m I size b0 H. unfold w_fixed_with_size, assert in H. destruct (0 <? size); cbn [run_bind] in H; [|discriminate]. destruct (Nat.leb_spec size (w_alloc m)) as [Hs|Hs]; cbn [run_bind] in H; [|discriminate].
  inversion H; subst. repeat split; cbn [f_mem f_populated]; rewrite ?repeat_length; try lia. constructor.
Qed.
Lemma growing_fresh : forall m I alloc limit, platform m -> growing_used_inv m (growing_with_limit 0 alloc limit : growing I).
Proof. intros m I alloc limit P. unfold platform in P. repeat split; cbn; try lia. constructor. Qed.

(** A Source over a FixedSizeBuffer: every call may panic, by itself, in the parser or in the data source, and be caught, and the Source be
    used further. *)
(** Missing in the four theorems: data sources that break their contract, and (GrowingBuffer used directly) consuming more than is held; false there ([C44_lying_refuted], [C44_growing_buffer_refuted]). *)
Theorem C44_fixed_unwind_partial : forall m St I (ds : panicky_source St I) s0 size b0 st, platform m -> p_obeys ds -> w_fixed_with_size m size = Done b0 ->
  u_history m ds (u_fixed_ops I m) s0 b0 st -> all_survive m ds (u_fixed_ops I m) st.
Proof. intros m St I ds s0 size b0 st P Ho Hb H. exact (u_history_survives P Ho (u_fixed_safe P I) (fixed_fresh _ _ _ _ Hb) H). Qed.
Theorem C44_growing_unwind_partial : forall m St I (ds : panicky_source St I) s0 alloc limit st, platform m -> p_obeys ds ->
  u_history m ds (u_growing_ops I m) s0 (growing_with_limit 0 alloc limit) st -> all_survive m ds (u_growing_ops I m) st.
Proof. intros m St I ds s0 alloc limit st P Ho H. exact (u_history_survives P Ho (u_growing_safe P I) (proj1 (growing_fresh _ _ alloc limit P)) H). Qed.
(** The buffers used directly, the visible items also being overwritten through [deref_mut]. *)
Theorem C44_fixed_buffer_unwind_partial : forall m I size (b0 b : fixed I), platform m -> w_fixed_with_size m size = Done b0 ->
  u_reached m (u_fixed_ops I m) fixed_write any_amount b0 b -> buffer_survives m (u_fixed_ops I m) fixed_write b.
Proof. intros m I size b0 b P Hb H. exact (u_fixed_survives P (fixed_fresh _ _ _ _ Hb) H). Qed.
Theorem C44_growing_buffer_unwind_partial : forall m I alloc limit (b : growing I), platform m ->
  u_reached m (u_growing_ops I m) growing_write (u_held (u_growing_ops I m)) (growing_with_limit 0 alloc limit) b ->
  buffer_survives m (u_growing_ops I m) growing_write b.
Proof. intros m I alloc limit b P H. exact (u_growing_survives P (growing_fresh _ _ alloc limit P) H). Qed.
Print Assumptions C44_fixed_unwind_partial.
Print Assumptions C44_growing_unwind_partial.
Print Assumptions C44_fixed_buffer_unwind_partial.
Print Assumptions C44_growing_buffer_unwind_partial.

(** * C50 *)

(** The model with caught panics is the one without, if nothing is caught. *)
Theorem C50_same_fixed : forall m St I (ds : data_source St I) (st : src St (fixed I)),
  (forall T E (p : parser I T E), outcome (u_src_parse m (calm ds) (u_fixed_ops I m) p st) = w_src_parse m ds (w_fixed_ops I m) p st) /\
  outcome (u_src_fill m (calm ds) (u_fixed_ops I m) st) = w_src_fill m ds (w_fixed_ops I m) st /\
  (forall n, outcome (u_src_read m (calm ds) (u_fixed_ops I m) n st) = w_src_read m ds (w_fixed_ops I m) n st) /\
  outcome (u_src_fill_buf m (calm ds) (u_fixed_ops I m) st) = w_src_fill_buf m ds (w_fixed_ops I m) st /\
  (forall n, outcome (u_src_consume (u_fixed_ops I m) n st) = let! st := src_consume (w_fixed_ops I m) n st in Done (st, tt)).
Proof.
  intros m St I ds st. pose proof (same_fixed I m) as H. split; [intros; apply same_parse, H|]. split; [apply same_fill, H|]. split; [intros; apply same_read, H|].
  split; [apply same_fill_buf, H|intros; apply same_consume, H].
Qed.
Theorem C50_same_growing : forall m St I (ds : data_source St I) (st : src St (growing I)),
  (forall T E (p : parser I T E), outcome (u_src_parse m (calm ds) (u_growing_ops I m) p st) = w_src_parse m ds (w_growing_ops I m) p st) /\
  outcome (u_src_fill m (calm ds) (u_growing_ops I m) st) = w_src_fill m ds (w_growing_ops I m) st /\
  (forall n, outcome (u_src_read m (calm ds) (u_growing_ops I m) n st) = w_src_read m ds (w_growing_ops I m) n st) /\
  outcome (u_src_fill_buf m (calm ds) (u_growing_ops I m) st) = w_src_fill_buf m ds (w_growing_ops I m) st /\
  (forall n, outcome (u_src_consume (u_growing_ops I m) n st) = let! st := src_consume (w_growing_ops I m) n st in Done (st, tt)).
Proof.
  intros m St I ds st. pose proof (same_growing I m) as H. split; [intros; apply same_parse, H|]. split; [apply same_fill, H|]. split; [intros; apply same_read, H|].
  split; [apply same_fill_buf, H|intros; apply same_consume, H].
Qed.

(** A parser that panics has no effect: catching the panic and parsing with any other parser gives what that would have given in the first
    place.  ([q]: some parser that does not panic where [p] does, so that it was [p] that panicked and not the filling of the buffer.) *)
Theorem C50_retry_fixed : forall m St I (ds : panicky_source St I) T E (p : parser I T E) st st' T1 E1 (q : parser I T1 E1) st1 r,
  u_src_parse m ds (u_fixed_ops I m) p st = Unwinds st' -> u_src_parse m ds (u_fixed_ops I m) q st = Returns st1 r ->
  forall T2 E2 (q' : parser I T2 E2), u_src_parse m ds (u_fixed_ops I m) q' st' = u_src_parse m ds (u_fixed_ops I m) q' st.
Proof. intros. eapply parse_retry; [apply fixed_consume_unwinds|eassumption|eassumption]. Qed.
Theorem C50_retry_growing : forall m St I (ds : panicky_source St I) T E (p : parser I T E) st st' T1 E1 (q : parser I T1 E1) st1 r,
  u_src_parse m ds (u_growing_ops I m) p st = Unwinds st' -> u_src_parse m ds (u_growing_ops I m) q st = Returns st1 r ->
  forall T2 E2 (q' : parser I T2 E2), u_src_parse m ds (u_growing_ops I m) q' st' = u_src_parse m ds (u_growing_ops I m) q' st.
Proof. intros. eapply parse_retry; [apply growing_consume_unwinds|eassumption|eassumption]. Qed.
(** A SliceStream is not changed at all by a call that panics. *)
Theorem C50_slice : forall m I T E (p : parser I T E) (s s' : slice_stream I),
  outcome (u_slice_parse m p s) = w_slice_parse m p s /\ (u_slice_parse m p s = Unwinds s' -> s' = s).
Proof.
  intros m I T E p s s'. unfold u_slice_parse, w_slice_parse. destruct (w_slice_len m s) as [l| | |]; cbn [at_state run_bind outcome]; try (split; [reflexivity|congruence]).
  destruct (l =? 0); [split; [reflexivity|congruence]|]. destruct (assert _) as [u| | |]; cbn [at_state run_bind outcome]; try (split; [reflexivity|congruence]).
  destruct (p _) as [j v|b0 er|n| |]; try (split; [reflexivity|congruence]).
  - destruct (w_sub m _ _) as [n| | |]; cbn [at_state run_bind outcome]; try (split; [reflexivity|congruence]). destruct (w_add m _ _) as [x| | |]; cbn [at_state run_bind outcome]; split; try reflexivity; congruence.
  - destruct (w_sub m _ _) as [n| | |]; cbn [at_state run_bind outcome]; try (split; [reflexivity|congruence]). destruct (w_add m _ _) as [x| | |]; cbn [at_state run_bind outcome]; split; try reflexivity; congruence.
  - destruct (w_add m _ _) as [x| | |]; cbn [at_state run_bind outcome]; split; try reflexivity; congruence.
Qed.

(** No call that panics loses items, whoever panics: all that was visible, and then all that the reads have delivered since, is visible. *)
Definition panics_lossless {St I B} (m : machine) (ds : panicky_source St I) (ops : u_ops I B) (st : src (log St I) B) : Prop :=
  (forall T E (p : parser I T E) st', u_src_parse m (p_logged ds) ops p st = Unwinds st' -> lossless ops st st') /\
  (forall st', leaves (u_src_fill m (p_logged ds) ops st) st' -> lossless ops st st') /\
  (forall n st', u_src_read m (p_logged ds) ops n st = Unwinds st' -> lossless ops st st') /\
  (forall st', leaves (u_src_fill_buf m (p_logged ds) ops st) st' -> lossless ops st st') /\
  (forall n st', u_src_consume ops n st = Unwinds st' -> st' = st).

(** Missing: the items a panicking read had already taken from its iterator, which are lost ([C50_iterator_refuted]). *)
Theorem C50_lossless_fixed_partial : forall m St I (ds : panicky_source St I) s0 size b0 st, platform m -> p_obeys ds -> w_fixed_with_size m size = Done b0 ->
  u_history m (p_logged ds) (u_fixed_ops I m) (mkLog s0 [] false) b0 st -> panics_lossless m ds (u_fixed_ops I m) st.
Proof.
  intros m St I ds s0 size b0 st P Ho Hb H. destruct (u_history_safe P (p_obeys_logged Ho) (u_fixed_safe P I) (fixed_fresh _ _ _ _ Hb) H) as [Hi _].
  pose proof (fixed_keeps P Ho) as K.
  assert (G : forall st', (fixed_ok m (src_buffer st) -> gst (@fixed_ok m I) fixed_view st st') -> lossless (u_fixed_ops I m) st st').
  { intros st' Hg v Hv. pose proof (fixed_ok_intro Hi Hv) as Hk. exact (gst_lossless K Hk (Hg Hk) Hv). }
  repeat split; intros; [apply G; intros Hk; eapply (parse_unwinds m K); eassumption|apply G; intros Hk; eapply lv_leaves; [apply (lv_fill m K), Hk|eassumption]|
    apply G; intros Hk; eapply (read_unwinds m K); eassumption|apply G; intros Hk; eapply lv_leaves; [apply (lv_fill_buf m K), Hk|eassumption]|eapply (consume_unwinds K); eassumption].
Qed.
Theorem C50_lossless_growing_partial : forall m St I (ds : panicky_source St I) s0 alloc limit st, platform m -> p_obeys ds ->
  u_history m (p_logged ds) (u_growing_ops I m) (mkLog s0 [] false) (growing_with_limit 0 alloc limit) st -> panics_lossless m ds (u_growing_ops I m) st.
Proof.
  intros m St I ds s0 alloc limit st P Ho H. destruct (u_history_safe P (p_obeys_logged Ho) (u_growing_safe P I) (proj1 (growing_fresh _ _ alloc limit P)) H) as [Hi _].
  pose proof (growing_keeps P Ho) as K.
  assert (G : forall st', (growing_ok m (src_buffer st) -> gst (@growing_ok m I) growing_view st st') -> lossless (u_growing_ops I m) st st').
  { intros st' Hg v Hv. pose proof (growing_ok_intro Hi Hv) as Hk. exact (gst_lossless K Hk (Hg Hk) Hv). }
  repeat split; intros; [apply G; intros Hk; eapply (parse_unwinds m K); eassumption|apply G; intros Hk; eapply lv_leaves; [apply (lv_fill m K), Hk|eassumption]|
    apply G; intros Hk; eapply (read_unwinds m K); eassumption|apply G; intros Hk; eapply lv_leaves; [apply (lv_fill_buf m K), Hk|eassumption]|eapply (consume_unwinds K); eassumption].
Qed.

(** But items are lost that never were delivered by a read: an [IteratorDataSource] has taken them out of the iterator when that panics.  The
    iterator: a list of items, with panics ([None]) in between. *)
Definition list_next {I} (l : list (option I)) : option (option I) * list (option I) :=
  match l with
  | Some x :: l => (Some (Some x), l)
  | None :: l => (None, l)
  | [] => (Some None, [])
  end.
Lemma iter_panics : forall I (pre : list I) post k, length pre < k -> iter_read_p list_next k (List.map Some pre ++ None :: post) = (post, List.map Some pre, None).
Proof.
  induction pre as [|x pre IH]; intros post k Hk; (destruct k as [|k]; [cbn in Hk; lia|]); cbn [iter_read_p List.map app list_next]; [reflexivity|].
  rewrite IH by (cbn [length] in Hk; lia). reflexivity.
Qed.
(** What an [IteratorDataSource] reads: if [next] never panics, the same as the one of Buffer.v; otherwise the items before the panic, as many as fit. *)
Theorem C50_iterator_same : forall It I (next : It -> option I * It) it k,
  ps_read (iter_source_p (fun it => let '(o, it') := next it in (Some o, it'))) it k = ps_read (calm (iter_data_source next)) it k.
Proof.
  intros It I next it k. cbn [iter_source_p calm iter_data_source ps_read ds_read].
  assert (G : forall k it, iter_read_p (fun it => let '(o, it') := next it in (Some o, it')) k it = let '(it', w, n) := iter_read next k it in (it', w, Some n)).
  { clear. induction k as [|k IH]; intros it; cbn [iter_read_p iter_read]; [reflexivity|]. destruct (next it) as [[i|] it']; [|reflexivity].
    rewrite IH. destruct (iter_read next k it') as [[it2 w] n]. reflexivity. }
  rewrite G. destruct (iter_read next k it) as [[it2 w] n]. reflexivity.
Qed.
Theorem C50_iterator_reads : forall I (pre : list I) post k,
  (k <= length pre -> ps_read (iter_source_p list_next) (List.map Some pre ++ post) k = (List.map Some (skipn k pre) ++ post, List.map Some (firstn k pre), Some (IoOk k))) /\
  (length pre < k -> ps_read (iter_source_p list_next) (List.map Some pre) k = ([], List.map Some pre, Some (IoOk (length pre)))) /\
  (length pre < k -> ps_read (iter_source_p list_next) (List.map Some pre ++ None :: post) k = (post, List.map Some pre, None)).
Proof.
  intros I pre post k. cbn [iter_source_p ps_read]. split; [|split]; intros Hk; [| |rewrite iter_panics by exact Hk; reflexivity].
  - assert (G : forall k pre, k <= length pre -> iter_read_p list_next k (List.map Some pre ++ post) = (List.map Some (skipn k pre) ++ post, List.map Some (firstn k pre), Some k)).
    { clear. induction k as [|k IH]; intros [|x pre] Hk; cbn [length] in Hk; try lia; cbn [iter_read_p List.map app list_next skipn firstn]; try reflexivity.
      rewrite IH by lia. reflexivity. }
    rewrite G by exact Hk. reflexivity.
  - assert (G : forall pre k, length pre < k -> iter_read_p list_next k (List.map Some pre) = ([] : list (option I), List.map Some pre, Some (length pre))).
    { clear. induction pre as [|x pre IH]; intros [|k] Hk; cbn [length] in Hk; try lia; cbn [iter_read_p List.map list_next length]; [reflexivity|].
      rewrite IH by lia. reflexivity. }
    rewrite G by exact Hk. reflexivity.
Qed.
Print Assumptions C50_iterator_same.
Print Assumptions C50_iterator_reads.
Theorem C50_iterator_refuted : forall m I size (b0 : fixed I) (pre : list I) post T E (p : parser I T E), platform m -> w_fixed_with_size m size = Done b0 -> length pre < size ->
  exists st, u_src_parse m (iter_source_p list_next) (u_fixed_ops I m) p (src_with_buffer (List.map Some pre ++ None :: post) b0) = Unwinds st /\
    src_source st = post /\ fixed_deref (src_buffer st) = Done [].
Proof.
  intros m I size b0 pre post T E p P Hb Hlen. unfold platform in P. unfold w_fixed_with_size, assert in Hb. destruct (0 <? size) eqn:E0; cbn [run_bind] in Hb; [|discriminate].
  destruct (Nat.leb_spec size (w_alloc m)) as [Hs|Hs]; cbn [run_bind] in Hb; [|discriminate]. inversion Hb; subst. clear Hb.
  unfold u_src_parse, src_with_buffer. cbn [src_incomplete src_auto andb]. unfold u_src_fill. cbn [src_request Nat.max]. unfold u_fill_requested. cbn [u_fixed_ops u_len src_buffer].
  unfold w_fixed_len. cbn [f_populated f_used]. rewrite sub_fits by lia. cbn [Nat.sub at_state Nat.ltb Nat.leb]. rewrite sub_fits by lia. cbn [Nat.sub at_state u_fixed_ops u_request_space].
  assert (Hr : u_fixed_request_space m (mkFixed (repeat None size) 0 0 : fixed I) 1 = Returns (mkFixed (repeat None size) 0 0) tt).
  { unfold u_fixed_request_space. cbn [f_used f_populated f_mem Nat.leb assert at_state]. rewrite repeat_length, sub_fits by lia. cbn [at_state].
    replace (size - 0 <? 1) with false by (symmetry; apply Nat.ltb_ge; apply Nat.ltb_lt in E0; lia). reflexivity. }
  rewrite Hr. cbn [on_part u_fixed_ops u_capacity].
  cbn [Nat.add u_fill_loop u_fixed_ops u_len u_fill]. unfold w_fixed_len. cbn [f_populated f_used]. rewrite sub_fits by lia. cbn [Nat.sub at_state Nat.ltb Nat.leb].
  unfold u_fixed_fill. cbn [f_populated f_mem f_used Nat.leb assert at_state]. cbn [iter_source_p ps_read src_source]. rewrite repeat_length, Nat.sub_0_r, iter_panics by exact Hlen.
  cbn [on_part]. eexists. split; [reflexivity|]. split; [reflexivity|]. cbn. reflexivity.
Qed.
Print Assumptions C50_same_fixed.
Print Assumptions C50_same_growing.
Print Assumptions C50_retry_fixed.
Print Assumptions C50_retry_growing.
Print Assumptions C50_slice.
Print Assumptions C50_lossless_fixed_partial.
Print Assumptions C50_lossless_growing_partial.
Print Assumptions C50_iterator_refuted.

(** Beside the theorems: a source that panics in between, after having written into the slice; the parser panics as well, and everything is caught. *)
Definition shaky : panicky_source (list (option (list nat))) nat :=
  mkPanickySource (fun s n =>
    match s with
    | [] => ([], [], Some (IoOk 0))
    | None :: s => (s, [Some 9], None)
    | Some c :: s => (s, List.map Some (firstn n c), Some (IoOk (length (firstn n c))))
    end).
Lemma shaky_obeys : p_obeys shaky.
Proof.
  intros s n s' w k H. cbn [shaky ps_read] in H. destruct s as [|[c|] s]; inversion H; subst; clear H.
  - split; [lia|]. exists []. split; reflexivity.
  - rewrite firstn_length. split; [lia|]. exists (firstn n c). rewrite firstn_length. split; [reflexivity|]. unfold writes. apply firstn_all2. rewrite map_length. lia.
Qed.
Example C44_case_unwind : let m := release_build 16 8 in exists b0 st,
  w_fixed_with_size m 4 = Done b0 /\ u_history m shaky (u_fixed_ops nat m) [Some [1; 2]; None; Some [3]] b0 st /\
  src_source st = [Some [3]] /\ f_mem (src_buffer st) = [Some 1; Some 2; Some 9; None] /\ fixed_deref (src_buffer st) = Done [1; 2] /\
  all_survive m shaky (u_fixed_ops nat m) st.
Proof.
  intros m. pose proof (uh_new m shaky (u_fixed_ops nat m) [Some [1; 2]; None; Some [3]] (mkFixed [None; None; None; None] 0 0)) as H.
  eapply uh_parse with (p := (fun _ => Panic) : parser nat unit unit) in H; [|left; vm_compute; reflexivity].
  eapply uh_parse with (p := incomplete 1 : parser nat unit unit) in H; [|right; eexists; vm_compute; reflexivity].
  eapply uh_fill in H; [|left; vm_compute; reflexivity].
  eexists. eexists. split; [reflexivity|]. split; [exact H|]. split; [reflexivity|]. split; [reflexivity|]. split; [reflexivity|].
  eapply C44_fixed_unwind_partial with (size := 4); [|apply shaky_obeys| |exact H]; [split; cbn; lia|reflexivity].
Qed.
(** A GrowingBuffer used directly: a capacity that cannot be allocated, a panicking source, and a write in between. *)
Example C44_case_buffer_unwind : let m := debug_build 16 8 in exists b,
  u_reached m (u_growing_ops nat m) growing_write (u_held (u_growing_ops nat m)) (growing_with_limit 0 (fun _ => 0) 0) b /\
  g_mem b = [Some 7; Some 8; Some 9] /\ growing_deref b = Done [7; 8] /\ buffer_survives m (u_growing_ops nat m) growing_write b.
Proof.
  intros m. pose proof (ur_new m (u_growing_ops nat m) growing_write (u_held (u_growing_ops nat m)) (growing_with_limit 0 (fun _ => 0) 0)) as H.
  eapply ur_request with (n := 9) in H; [|vm_compute; lia|left; vm_compute; reflexivity].
  eapply ur_request with (n := 3) in H; [|vm_compute; lia|right; eexists; vm_compute; reflexivity].
  eapply ur_fill with (ds := shaky) (s := [Some [1; 2]]) in H; [|apply shaky_obeys|right; eexists; vm_compute; reflexivity].
  eapply ur_fill with (ds := shaky) (s := [None]) in H; [|apply shaky_obeys|left; vm_compute; reflexivity].
  eapply ur_write with (l := [7; 8]) in H; [|vm_compute; reflexivity].
  eexists. split; [exact H|]. split; [reflexivity|]. split; [reflexivity|].
  eapply C44_growing_buffer_unwind_partial; [|exact H]. split; cbn; lia.
Qed.
(** The parser panics on its second item; the items it has seen are there for the next one. *)
Definition picky : parser nat nat unit := fun i => match buf i with 1 :: 2 :: _ => Panic | _ => Data i 0 end.
Example C50_case : let m := debug_build 16 8 in let o := u_fixed_ops nat m in exists st' st1,
  u_src_parse m shaky o picky (src_with_buffer [Some [1; 2]; None] (mkFixed [None; None; None] 0 0)) = Unwinds st' /\
  u_src_parse m shaky o (fun i => Parsers.take 2 i) (src_with_buffer [Some [1; 2]; None] (mkFixed [None; None; None] 0 0)) = Returns st1 (inl [1; 2]) /\
  u_src_parse m shaky o (fun i => Parsers.take 2 i) st' = Returns st1 (inl [1; 2]).
Proof. eexists. eexists. split; [vm_compute; reflexivity|]. split; vm_compute; reflexivity. Qed.
Example C50_case_lossless : let m := debug_build 16 8 in let o := u_fixed_ops nat m in exists st st',
  u_history m (p_logged shaky) o (mkLog [Some [1]; Some [2]; None; Some [3]] [] false) (mkFixed [None; None; None] 0 0) st /\
  u_src_parse m (p_logged shaky) o picky st = Unwinds st' /\ fixed_deref (src_buffer st) = Done [1] /\
  fixed_deref (src_buffer st') = Done [1; 2] /\ log_items (src_source st') = [1; 2] /\ log_state (src_source st') = [Some [3]].
Proof.
  intros m o. pose proof (uh_new m (p_logged shaky) o (mkLog [Some [1]; Some [2]; None; Some [3]] [] false) (mkFixed [None; None; None] 0 0)) as H.
  eapply uh_parse with (p := incomplete 2 : parser nat unit unit) in H; [|right; eexists; vm_compute; reflexivity].
  eexists. eexists. split; [exact H|]. split; [vm_compute; reflexivity|]. repeat split.
Qed.
Example C50_case_iterator : let m := debug_build 16 8 in exists b0, w_fixed_with_size m 4 = Done b0 /\ exists st,
  u_src_parse m (iter_source_p list_next) (u_fixed_ops nat m) (fun i => Parsers.any i) (src_with_buffer [Some 1; Some 2; None; Some 3] b0) = Unwinds st /\
  exists st', u_src_parse m (iter_source_p list_next) (u_fixed_ops nat m) (fun i => Parsers.any i) st = Returns st' (inl 3).
Proof. eexists. split; [reflexivity|]. eexists. split; [vm_compute; reflexivity|]. eexists. vm_compute. reflexivity. Qed.
Example C50_iterator_case : ps_read (iter_source_p list_next) [Some 1; Some 2; None; Some 3] 2 = ([None; Some 3], [Some 1; Some 2], Some (IoOk 2)) /\
  ps_read (iter_source_p list_next) [Some 1; Some 2; None; Some 3] 3 = ([Some 3], [Some 1; Some 2], None) /\
  ps_read (iter_source_p list_next) [Some 3] 3 = ([], [Some 3], Some (IoOk 1)).
Proof. repeat split. Qed.
