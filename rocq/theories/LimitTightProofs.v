(** Proofs that the bound of C47 on the limit of a GrowingBuffer is sharp: a buffer all of whose memory is written, step by step. *)
From Coq Require Import List Bool Arith Lia.
From Verif Require Import Base Parsers Buffer Stream SpecBase SpecSafe SpecBuffer SpecStream BufferProofs StreamProofs MeterProofs.
Import ListNotations.

Set Implicit Arguments.

(** All memory is written; [u] items of [x] are consumed. *)
Definition filled {I} (L : nat) (x : list I) (u c : nat) : growing I := mkGrowing (List.map Some x) (length x) (length x) L u (fun _ => 0) c.
Definition rest_of {I} (l : list I) : list (option (list I)) := match l with [] => [] | r => [Some r] end.
Lemma filled_deref : forall I L (x : list I) u c, u <= length x -> growing_deref (filled L x u c) = Done (skipn u x).
Proof.
  intros I L x u c Hu. unfold growing_deref, filled. cbn [g_used g_populated g_mem]. rewrite map_length, Nat.leb_refl, (proj2 (Nat.leb_le _ _)) by assumption.
  cbn [assert andb run_bind]. rewrite skipn_map, firstn_all2 by (rewrite map_length, skipn_length; lia). apply expose_map.
Qed.
Lemma filled_fill : forall I L (x : list I) u c k req rest en, u <= length x -> 1 <= k -> k <= length rest -> u < k -> L = 0 \/ length x <= L -> Nat.max 1 req = length x - u + k ->
  src_fill (read_data_source chunk_read) (growing_ops I) (mkSrc [Some rest] (filled L x u c) req true en true) =
  Done (mkSrc (rest_of (skipn k rest)) (filled L (x ++ firstn k rest) u (S c)) req false false true, IoOk k).
Proof.
  intros I L x u c k req rest en Hu Hk Hr Hg HL Hreq. unfold src_fill, fill_requested. cbn [src_request src_buffer src_source].
  rewrite Hreq. clear Hreq. cbn [growing_ops op_len op_request_space]. unfold growing_len at 1.
  cbn [filled g_populated g_used]. rewrite usize_sub_ok by assumption. cbn [run_bind]. rewrite (proj2 (Nat.ltb_lt _ _)) by lia. rewrite usize_sub_ok by lia. cbn [run_bind].
  replace (length x - u + k - (length x - u)) with k by lia.
  assert (Hq : growing_request_space (filled L x u c) k = Done (mkGrowing (List.map Some x ++ repeat None k) (length x + k) (length x) L u (fun _ => 0) (S c))).
  { unfold growing_request_space, growing_len, filled. cbn [g_limit g_cap g_populated g_used]. replace (negb (L =? 0) && (L <? length x)) with false.
    2: { symmetry. destruct HL as [->|HL]; [reflexivity|]. rewrite (proj2 (Nat.ltb_ge _ _)) by assumption. apply andb_false_r. }
    rewrite usize_sub_ok by assumption. cbn [run_bind].
    rewrite (proj2 (Nat.ltb_lt (length x) (k + (length x - u)))) by lia.
    unfold growing_reserve. cbn [g_cap g_mem]. rewrite map_length, Nat.sub_diag. rewrite (proj2 (Nat.leb_gt k 0)) by lia.
    unfold growing_set_len. cbn [g_mem g_cap g_populated g_limit g_used g_alloc g_count]. rewrite map_length.
    replace (length x + k + 0 - length x) with k by lia. rewrite app_length, map_length, repeat_length. rewrite usize_sub_ok by lia. cbn [run_bind].
    rewrite (proj2 (Nat.ltb_ge _ _)) by lia. rewrite Nat.add_0_r. reflexivity. }
  rewrite Hq. cbn [run_bind]. cbn [fill_loop growing_ops op_len op_fill]. unfold growing_len at 1. cbn [g_populated g_used].
  rewrite usize_sub_ok by assumption. cbn [run_bind]. rewrite (proj2 (Nat.ltb_lt _ _)) by lia. unfold growing_fill at 1. cbn [g_populated g_mem g_cap g_limit g_used g_alloc g_count].
  rewrite app_length, map_length, repeat_length. rewrite (proj2 (Nat.leb_le _ _)) by lia. cbn [assert run_bind ds_read read_data_source chunk_read].
  replace (length x + k - length x) with k by lia. rewrite firstn_app, map_length, Nat.sub_diag, firstn_O, app_nil_r. rewrite (@firstn_all2 _ (length x) (List.map Some x)) by (rewrite map_length; lia).
  rewrite skipn_app, map_length, Nat.sub_diag, (@skipn_all2 _ (length x) (List.map Some x)) by (rewrite map_length; lia). cbn [skipn app].
  assert (Hlen : length (firstn k rest) = k) by (rewrite firstn_length; lia).
  assert (How : overwrite (List.map Some (firstn k rest)) (repeat None k) = List.map Some (firstn k rest)).
  { pose proof (overwrite_fresh (firstn k rest)) as Ho. rewrite Hlen in Ho. exact Ho. }
  rewrite How, Hlen. rewrite app_length, !map_length, Hlen, Nat.leb_refl. destruct k as [|k]; [lia|].
  cbn [assert run_bind].
  cbn [fill_loop growing_ops op_len]. unfold growing_len at 1. cbn [g_populated g_used]. rewrite usize_sub_ok by lia. cbn [run_bind].
  rewrite (proj2 (Nat.ltb_ge _ _)) by lia. cbn [run_bind src_with src_source src_buffer src_request src_incomplete src_eoi src_auto growing_ops op_len]. unfold growing_len. cbn [g_populated g_used].
  rewrite usize_sub_ok by lia. cbn [run_bind]. rewrite (proj2 (Nat.leb_le _ _)) by lia. cbn [negb].
  unfold filled, rest_of. rewrite map_app, app_length, Hlen. destruct (skipn (S k) rest); reflexivity.
Qed.

(** A call of [take] which has to fill first, and one on what is there. *)
Lemma filled_take : forall I L (x : list I) u c k req rest en n, u <= length x -> 1 <= k -> k <= length rest -> u < k -> L = 0 \/ length x <= L -> Nat.max 1 req = length x - u + k ->
  src_parse (read_data_source chunk_read) (growing_ops I) (take n) (mkSrc [Some rest] (filled L x u c) req true en true) =
  src_parse (read_data_source chunk_read) (growing_ops I) (take n)
    (mkSrc (rest_of (skipn k rest)) (filled L (x ++ firstn k rest) u (S c)) req false false true).
Proof.
  intros I L x u c k req rest en n Hu Hk Hr Hg HL Hreq. unfold src_parse at 1. cbn [src_incomplete src_auto andb]. rewrite (@filled_fill I L x u c k) by assumption. cbn [run_bind]. reflexivity.
Qed.
Lemma filled_take_enough : forall I L (x : list I) u c s req en n, u <= length x -> 1 <= n -> n <= length x - u ->
  src_parse (read_data_source chunk_read) (growing_ops I) (take n) (mkSrc s (filled L x u c) req false en true) =
  Done (mkSrc s (filled L x (u + n) c) req false en true, inl (firstn n (skipn u x))).
Proof.
  intros I L x u c s req en n Hu Hn Hx. unfold src_parse. cbn [src_incomplete src_auto andb run_bind]. unfold src_is_empty, src_len. cbn [src_eoi src_buffer growing_ops op_len].
  assert (Hl : growing_len (filled L x u c) = Done (length x - u)) by (unfold growing_len, filled; cbn [g_populated g_used]; apply usize_sub_ok; assumption). rewrite Hl.
  replace (if en then let! l := Done (length x - u) in Done (l =? 0) else Done false) with (Done false).
  2: { destruct en; cbn [run_bind]; [rewrite (proj2 (Nat.eqb_neq _ _)) by lia|]; reflexivity. }
  cbn [run_bind growing_ops op_deref src_buffer]. rewrite filled_deref by assumption. cbn [run_bind]. unfold take. cbn [buf]. rewrite skipn_length, (proj2 (Nat.leb_le _ _)) by assumption.
  cbn [ret replace buf]. rewrite !skipn_length, usize_sub_ok by lia. cbn [run_bind growing_ops op_consume].
  replace (length x - u - (length x - u - n)) with n by lia. unfold growing_consume, filled. cbn [g_used g_populated g_mem g_cap g_limit g_alloc g_count].
  rewrite (proj2 (Nat.leb_le _ _)) by lia. reflexivity.
Qed.
Lemma filled_take_short : forall I L (x : list I) u c s req n, u <= length x -> length x - u < n ->
  src_parse (read_data_source chunk_read) (growing_ops I) (take n) (mkSrc s (filled L x u c) req false false true) =
  Done (mkSrc s (filled L x u c) (length x - u + (n - (length x - u))) true false true, inr SRetry).
Proof.
  intros I L x u c s req n Hu Hx. unfold src_parse. cbn [src_incomplete src_auto andb run_bind]. unfold src_is_empty. cbn [src_eoi src_buffer growing_ops op_len op_deref run_bind].
  rewrite filled_deref by assumption. cbn [run_bind]. unfold take. cbn [buf]. rewrite skipn_length, (proj2 (Nat.leb_gt _ _)) by assumption. cbn [incomplete].
  unfold growing_len, filled. cbn [g_populated g_used]. rewrite usize_sub_ok by assumption. reflexivity.
Qed.

(** Beyond the limit nothing can be read any more. *)
Lemma filled_stuck : forall I L (x : list I) c r rest req n, L <> 0 -> L < length x -> 1 <= req ->
  src_parse (read_data_source chunk_read) (growing_ops I) (take n) (mkSrc [Some (r :: rest)] (filled L x (length x) c) req true false true) =
  Done (mkSrc [Some (r :: rest)] (filled L x (length x) c) req false true true, inr SEndOfInput).
Proof.
  intros I L x c r rest req n HL Hx Hr. unfold src_parse. cbn [src_incomplete src_auto andb]. unfold src_fill, fill_requested. cbn [src_request src_buffer src_source].
  assert (Hl : growing_len (filled L x (length x) c) = Done 0) by (unfold growing_len, filled; cbn [g_populated g_used]; rewrite usize_sub_ok by lia; f_equal; lia).
  cbn [growing_ops op_len op_request_space]. rewrite Hl. cbn [run_bind]. rewrite (proj2 (Nat.ltb_lt _ _)) by lia. rewrite usize_sub_ok by lia. cbn [run_bind].
  assert (Hq : forall k, growing_request_space (filled L x (length x) c) k = Done (filled L x (length x) c)).
  { intros k. unfold growing_request_space. cbn [filled g_limit g_cap]. rewrite (proj2 (Nat.eqb_neq _ _)), (proj2 (Nat.ltb_lt _ _)) by assumption. reflexivity. }
  rewrite Hq. cbn [run_bind fill_loop growing_ops op_len op_fill]. rewrite Hl. cbn [run_bind]. rewrite (proj2 (Nat.ltb_lt _ _)) by lia.
  assert (Hf : growing_fill (read_data_source chunk_read) (filled L x (length x) c) [Some (r :: rest)] = Done (filled L x (length x) c, [Some (r :: rest)], IoOk 0)).
  { unfold growing_fill, filled. cbn [g_populated g_mem g_cap g_limit g_used g_alloc g_count]. rewrite map_length, Nat.leb_refl. cbn [assert run_bind].
    rewrite Nat.sub_diag. cbn [ds_read read_data_source chunk_read skipn firstn length List.map]. rewrite firstn_all2, skipn_all2 by (rewrite map_length; lia).
    cbn [overwrite]. rewrite app_nil_r, map_length, Nat.add_0_r, Nat.leb_refl. reflexivity. }
  rewrite Hf. cbn [run_bind src_with src_source src_buffer src_request src_incomplete src_eoi src_auto growing_ops op_len]. rewrite Hl. cbn [run_bind].
  rewrite (proj2 (Nat.leb_gt _ _)) by lia. cbn [negb]. unfold src_is_empty, src_len. cbn [src_eoi src_buffer growing_ops op_len]. rewrite Hl. reflexivity.
Qed.

Section Tight.
  Context {I : Type}.
  Variables (M : nat) (data : list I).
  Hypothesis HM : 2 <= M.
  Hypothesis Hd : 2 * M <= length data.
  Let L := 2 * M - 2.
  Let ds := read_data_source (@chunk_read I).

  Lemma rest_of_skipn : forall n, n < length data -> rest_of (skipn n data) = [Some (skipn n data)].
  Proof. intros n H. unfold rest_of. destruct (skipn n data) eqn:E; [|reflexivity]. apply (f_equal (@length I)) in E. rewrite skipn_length in E. cbn in E. lia. Qed.

  Lemma take_rest : forall a b, firstn a data ++ firstn b (skipn a data) = firstn (a + b) data.
  Proof.
    clear. intros a b. revert data. induction a as [|a IH]; intros [|x d]; cbn [firstn skipn app Nat.add]; auto; [apply firstn_nil|]. rewrite IH. reflexivity.
  Qed.
  Lemma skip_rest : forall a b, skipn b (skipn a data) = skipn (a + b) data.
  Proof. clear. intros a b. revert data. induction a as [|a IH]; intros [|x d]; cbn [skipn Nat.add]; auto. apply skipn_nil. Qed.

  Lemma tight_first : forall fuel, exists c req,
    insist ds (growing_ops I) (S (S fuel)) (take (M - 1)) (src_with_buffer [Some data] (growing_with_limit 0 (fun _ => 0) L)) =
    Done (mkSrc [Some (skipn (M - 1) data)] (filled L (firstn (M - 1) data) (M - 1) c) req false false true, inl (firstn (M - 1) data)).
  Proof.
    intros fuel. assert (Hl : length (firstn 1 data) = 1) by (rewrite firstn_length; lia).
    pose proof (@filled_take I L [] 0 0 1 0 data false (M - 1) (le_n _) (le_n _) ltac:(lia) ltac:(lia) ltac:(right; cbn; lia) eq_refl) as H0. cbn [length Nat.sub Nat.add app] in H0.
    rewrite rest_of_skipn in H0 by lia. fold ds in H0.
    change (src_with_buffer [Some data] (growing_with_limit 0 (fun _ => 0) L)) with (mkSrc [Some data] (filled (I := I) L [] 0 0) 0 true false true).
    cbn [insist]. rewrite H0. destruct (Nat.eq_dec M 2) as [E|E].
    - unfold ds. rewrite filled_take_enough by (rewrite ?Hl; lia). cbn [run_bind skipn]. rewrite firstn_firstn.
      exists 1, 0. replace (M - 1) with 1 by lia. reflexivity.
    - unfold ds. rewrite filled_take_short by (rewrite ?Hl; lia). cbn [run_bind]. rewrite Hl, Nat.sub_0_r.
      pose proof (@filled_take I L (firstn 1 data) 0 1 (M - 2) (M - 1) (skipn 1 data) false (M - 1)) as H1. rewrite Hl, skipn_length, skip_rest, take_rest, Nat.sub_0_r in H1.
      replace (1 + (M - 2)) with (M - 1) in H1 by lia. rewrite rest_of_skipn in H1 by lia.
      replace (1 + (M - 1 - 1)) with (M - 1) by lia. rewrite H1 by lia.
      rewrite filled_take_enough by (rewrite ?firstn_length; lia). cbn [run_bind Nat.add skipn]. rewrite firstn_firstn, Nat.min_id. exists 2, (M - 1). reflexivity.
  Qed.
  Lemma tight_second : forall fuel c req, exists c' req',
    insist ds (growing_ops I) (S (S fuel)) (take M) (mkSrc [Some (skipn (M - 1) data)] (filled L (firstn (M - 1) data) (M - 1) c) req false false true) =
    Done (mkSrc [Some (skipn (2 * M - 1) data)] (filled L (firstn (2 * M - 1) data) (2 * M - 1) c') req' false false true, inl (firstn M (skipn (M - 1) data))).
  Proof.
    intros fuel c req. assert (Hl : length (firstn (M - 1) data) = M - 1) by (rewrite firstn_length; lia).
    cbn [insist]. unfold ds. rewrite filled_take_short by (rewrite Hl; lia). cbn [run_bind]. rewrite Hl.
    pose proof (@filled_take I L (firstn (M - 1) data) (M - 1) c M M (skipn (M - 1) data) false M) as H1. rewrite Hl, skipn_length, skip_rest, take_rest in H1.
    replace (M - 1 + M) with (2 * M - 1) in H1 by lia. rewrite rest_of_skipn in H1 by lia.
    rewrite Nat.sub_diag, Nat.sub_0_r, Nat.add_0_l. rewrite Nat.sub_diag in H1. rewrite H1 by (unfold L; lia).
    assert (Hl2 : length (firstn (2 * M - 1) data) = 2 * M - 1) by (rewrite firstn_length; lia).
    rewrite filled_take_enough by (rewrite ?Hl2; lia). cbn [run_bind]. exists (S c), M. do 3 f_equal.
    - f_equal. lia.
    - replace (2 * M - 1) with (M - 1 + M) by lia. rewrite <- take_rest, skipn_app, Hl, Nat.sub_diag, skipn_all2 by lia. cbn [app skipn].
      rewrite firstn_firstn, Nat.min_id. reflexivity.
  Qed.
  Lemma tight_third : forall fuel c req, exists st,
    insist ds (growing_ops I) (S (S fuel)) (take 1) (mkSrc [Some (skipn (2 * M - 1) data)] (filled L (firstn (2 * M - 1) data) (2 * M - 1) c) req false false true) =
    Done (st, inr SEndOfInput).
  Proof.
    intros fuel c req. assert (Hl : length (firstn (2 * M - 1) data) = 2 * M - 1) by (rewrite firstn_length; lia).
    cbn [insist]. unfold ds. rewrite filled_take_short by (rewrite Hl; lia). cbn [run_bind]. rewrite Hl, Nat.sub_diag.
    destruct (skipn (2 * M - 1) data) as [|r rest] eqn:E; [apply (f_equal (@length I)) in E; rewrite skipn_length in E; cbn in E; lia|].
    pose proof (@filled_stuck I L (firstn (2 * M - 1) data) c r rest (0 + (1 - 0)) 1) as H1. rewrite Hl in H1. rewrite H1 by (unfold L; lia). eexists. reflexivity.
  Qed.

  (** The same three fields on a slice. *)
  Lemma slice_field : forall n pos, 1 <= n -> pos + n <= length data ->
    slice_parse (take n) (mkSliceStream pos data) = Done (mkSliceStream (pos + n) data, inl (firstn n (skipn pos data))).
  Proof.
    intros n pos Hn Hp. unfold slice_parse, slice_is_empty, slice_len. cbn [ss_pos ss_slice]. rewrite usize_sub_ok by lia. cbn [run_bind].
    rewrite (proj2 (Nat.eqb_neq _ _)) by lia. unfold take. cbn [buf]. rewrite skipn_length, (proj2 (Nat.leb_le _ _)) by lia. cbn [ret replace buf].
    rewrite !skipn_length, usize_sub_ok by lia. cbn [run_bind]. do 4 f_equal. lia.
  Qed.

  Definition three_fields : script I (list I) (error I) := Next (take (M - 1)) (fun _ => Next (take M) (fun _ => Next (take 1) (fun _ => SpecStream.Stop))).
  Lemma tight_slice : on_slice three_fields (slice_new data) =
    Done [inl (firstn (M - 1) data); inl (firstn M (skipn (M - 1) data)); inl (firstn 1 (skipn (2 * M - 1) data))].
  Proof.
    unfold three_fields, slice_new. cbn [on_slice]. rewrite slice_field by lia. cbn [run_bind forget]. rewrite slice_field by lia. cbn [run_bind forget].
    rewrite slice_field by lia. cbn [run_bind forget]. cbn [Nat.add skipn]. replace (M - 1 + M) with (2 * M - 1) by lia. reflexivity.
  Qed.
  Lemma tight_source : forall fuel, 2 <= fuel -> on_source ds (growing_ops I) fuel three_fields (src_with_buffer [Some data] (growing_with_limit 0 (fun _ => 0) L)) =
    Done [inl (firstn (M - 1) data); inl (firstn M (skipn (M - 1) data)); inr SEndOfInput].
  Proof.
    intros fuel Hf. destruct fuel as [|[|fuel]]; [lia|lia|]. unfold three_fields. cbn [on_source].
    destruct (tight_first fuel) as (c & req & H1). rewrite H1. cbn [run_bind forget].
    destruct (tight_second fuel c req) as (c' & req' & H2). rewrite H2. cbn [run_bind forget].
    destruct (tight_third fuel c' req') as (st & H3). rewrite H3. reflexivity.
  Qed.
End Tight.
