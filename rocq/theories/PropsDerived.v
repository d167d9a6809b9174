(** Property theorems C48 (derived comparisons are lawful) and C49 (derived implementations of the buffers). *)
From Coq Require Import List Bool Arith Lia.
From Verif Require Import Base Parsers Buffer Stream Derived SpecBuffer SpecDerived BufferProofs PropsBuffer DerivedProofs.
Import ListNotations.

(** * C48 *)
(** For all comparisons of the items, values and errors that obey the laws. *)
Theorem C48_input : forall I (ieqb : I -> I -> bool) icmp ihash,
  (equivalence ieqb -> equivalence (input_eqb ieqb)) /\ (decides ieqb -> decides (input_eqb ieqb)) /\
  (total_order ieqb icmp -> total_order (input_eqb ieqb) (input_cmp icmp)) /\ (hashes ieqb ihash -> hashes (input_eqb ieqb) (input_hash ihash)).
Proof. intros. split; [apply input_equivalence|split; [apply input_decides|split; [apply input_order|apply input_hashes]]]. Qed.
Theorem C48_error : forall I (ieqb : I -> I -> bool) icmp ihash,
  (equivalence ieqb -> equivalence (error_eqb ieqb)) /\ (decides ieqb -> decides (error_eqb ieqb)) /\
  (total_order ieqb icmp -> total_order (error_eqb ieqb) (error_cmp icmp)) /\ (hashes ieqb ihash -> hashes (error_eqb ieqb) (error_hash ihash)).
Proof. intros. split; [apply error_equivalence|split; [apply error_decides|split; [apply error_order|apply error_hashes]]]. Qed.
Theorem C48_result : forall I T E (ieqb : I -> I -> bool) (teqb : T -> T -> bool) (eeqb : E -> E -> bool) icmp tcmp ecmp ihash thash ehash,
  (equivalence ieqb -> equivalence teqb -> equivalence eeqb -> equivalence (state_eqb ieqb teqb eeqb)) /\
  (decides ieqb -> decides teqb -> decides eeqb -> decides (state_eqb ieqb teqb eeqb)) /\
  (total_order ieqb icmp -> total_order teqb tcmp -> total_order eeqb ecmp -> total_order (state_eqb ieqb teqb eeqb) (state_cmp icmp tcmp ecmp)) /\
  (hashes ieqb ihash -> hashes teqb thash -> hashes eeqb ehash -> hashes (state_eqb ieqb teqb eeqb) (state_hash ihash thash ehash)).
Proof. intros. split; [apply state_equivalence|split; [apply state_decides|split; [apply state_order|apply state_hashes]]]. Qed.
Theorem C48_parse_error : forall I E (ieqb : I -> I -> bool) (eeqb : E -> E -> bool),
  (equivalence ieqb -> equivalence eeqb -> equivalence (parse_error_eqb ieqb eeqb)) /\ (decides ieqb -> decides eeqb -> decides (parse_error_eqb ieqb eeqb)).
Proof. intros. split; [apply parse_error_equivalence|apply parse_error_decides]. Qed.
Theorem C48_slice_stream : forall I (ieqb : I -> I -> bool) ihash,
  (equivalence ieqb -> equivalence (slice_stream_eqb ieqb)) /\ (decides ieqb -> decides (slice_stream_eqb ieqb)) /\
  (hashes ieqb ihash -> hashes (slice_stream_eqb ieqb) (slice_stream_hash ihash)).
Proof. intros. split; [apply slice_stream_equivalence|split; [apply slice_stream_decides|apply slice_stream_hashes]]. Qed.
(** What the orders are: successes before errors before requests for more; shorter requests first; input that may continue before input
    that has ended, then by its items. *)
Theorem C48_variants : forall I T E (icmp : I -> I -> comparison) (tcmp : T -> T -> comparison) (ecmp : E -> E -> comparison) i t b e n m,
  state_cmp icmp tcmp ecmp (Data i t) (Error b e) = Lt /\ state_cmp icmp tcmp ecmp (Error b e) (Incomplete n) = Lt /\
  state_cmp icmp tcmp ecmp (Data i t) (Incomplete n) = Lt /\
  (state_cmp icmp tcmp ecmp (Incomplete n) (Incomplete m) = Lt <-> n < m) /\
  (forall c d, input_cmp icmp (mkInput false c) (mkInput true d) = Lt) /\
  (forall l c d, input_cmp icmp (mkInput l c) (mkInput l d) = slice_cmp icmp c d).
Proof.
  intros. repeat split; auto.
  - cbn. apply Nat.compare_lt_iff.
  - cbn. apply Nat.compare_lt_iff.
  - intros l c d. unfold input_cmp. cbn [last buf]. rewrite Nat.compare_refl. reflexivity.
Qed.
Print Assumptions C48_input.
Print Assumptions C48_error.
Print Assumptions C48_result.
Print Assumptions C48_parse_error.
Print Assumptions C48_slice_stream.
Print Assumptions C48_variants.
(** What the orders are, exactly: mode first, then the words of items; position first, then the error; input first, then the value. *)
Lemma slice_cmp_less I (icmp : I -> I -> comparison) : forall b c, slice_cmp icmp b c = Lt <-> word_less icmp b c.
Proof.
  induction b as [|x b IH]; intros [|y c]; cbn [slice_cmp].
  - split; [discriminate|]. intros (p & q & r1 & r2 & H1 & H2 & _ & H). destruct p, q, r1, r2; try discriminate; contradiction.
  - split; [intros _|reflexivity]. exists [], [], [], (y :: c). repeat split; auto.
  - split; [discriminate|]. intros (p & q & r1 & r2 & H1 & H2 & F & H). destruct F; [|discriminate]. destruct r2; [|discriminate]. cbn in H1. subst r1. contradiction.
  - unfold then_cmp. split.
    + destruct (icmp x y) eqn:E; intros H; try discriminate.
      * apply IH in H. destruct H as (p & q & r1 & r2 & -> & -> & F & H). exists (x :: p), (y :: q), r1, r2. repeat split; auto.
      * exists [], [], (x :: b), (y :: c). repeat split; auto.
    + intros (p & q & r1 & r2 & H1 & H2 & F & H). destruct F as [|x' y' p q Hx F].
      * cbn in H1, H2. subst r1 r2. rewrite H. reflexivity.
      * cbn in H1, H2. inversion H1; inversion H2; subst. rewrite Hx. apply IH. exists p, q, r1, r2. auto.
Qed.
Lemma slice_cmp_same I (icmp : I -> I -> comparison) : forall b c, slice_cmp icmp b c = Eq <-> word_same icmp b c.
Proof.
  unfold word_same. induction b as [|x b IH]; intros [|y c]; cbn [slice_cmp].
  - split; [constructor|reflexivity].
  - split; [discriminate|intros H; inversion H].
  - split; [discriminate|intros H; inversion H].
  - unfold then_cmp. split; [destruct (icmp x y) eqn:E; intros H; try discriminate; constructor; [assumption|]; apply IH; assumption|].
    intros H. inversion H as [|? ? ? ? Hx Hf]; subst. rewrite Hx. apply IH. assumption.
Qed.
Theorem C48_order_exact : forall I T E (icmp : I -> I -> comparison) (tcmp : T -> T -> comparison) (ecmp : E -> E -> comparison),
  (forall l b l' c, input_cmp icmp (mkInput l b) (mkInput l' c) = Lt <-> (l = false /\ l' = true) \/ (l = l' /\ word_less icmp b c)) /\
  (forall l b l' c, input_cmp icmp (mkInput l b) (mkInput l' c) = Eq <-> l = l' /\ word_same icmp b c) /\
  (forall l b t l' c u, state_cmp icmp tcmp ecmp (Data (mkInput l b) t) (Data (mkInput l' c) u) = Lt <->
     (l = false /\ l' = true) \/ (l = l' /\ (word_less icmp b c \/ (word_same icmp b c /\ tcmp t u = Lt)))) /\
  (forall b e c f, state_cmp icmp tcmp ecmp (Error b e) (Error c f) = Lt <-> word_less icmp b c \/ (word_same icmp b c /\ ecmp e f = Lt)) /\
  (forall x y, error_cmp icmp (Expected x) (Expected y) = icmp x y) /\ (forall x, error_cmp icmp (Expected x) Unexpected = Lt) /\
  (forall x b, error_cmp icmp (Expected x) (EString b) = Lt) /\ (forall b, error_cmp icmp Unexpected (EString b) = Lt) /\
  (forall b c, error_cmp icmp (EString b) (EString c) = Lt <-> word_less icmp b c).
Proof.
  intros I T E icmp tcmp ecmp.
  assert (L : forall b c, slice_cmp icmp b c = Lt <-> word_less icmp b c) by apply slice_cmp_less.
  assert (S : forall b c, slice_cmp icmp b c = Eq <-> word_same icmp b c) by apply slice_cmp_same.
  assert (P : forall c d, then_cmp c d = Lt <-> c = Lt \/ (c = Eq /\ d = Lt)).
  { intros [| |] d; cbn; split; intros H; try discriminate; auto; try (destruct H as [H|[H H']]; try discriminate; auto). }
  assert (IL : forall l b l' c, input_cmp icmp (mkInput l b) (mkInput l' c) = Lt <-> (l = false /\ l' = true) \/ (l = l' /\ word_less icmp b c)).
  { intros [|] b [|] c; unfold input_cmp; cbn [last buf mode_bits Nat.compare then_cmp]; rewrite ?L; split; intros H; auto; try discriminate;
      repeat match goal with H : _ \/ _ |- _ => destruct H | H : _ /\ _ |- _ => destruct H end; auto; discriminate. }
  assert (IE : forall l b l' c, input_cmp icmp (mkInput l b) (mkInput l' c) = Eq <-> l = l' /\ word_same icmp b c).
  { intros [|] b [|] c; unfold input_cmp; cbn [last buf mode_bits Nat.compare then_cmp]; rewrite ?S; split; intros H; auto; try discriminate; tauto || (destruct H; discriminate). }
  repeat split; try reflexivity; try apply IL; try (apply IE; assumption); try (apply IE in H; apply H).
  - cbn [state_cmp]. rewrite P, IL, IE. tauto.
  - cbn [state_cmp]. rewrite P, IL, IE. tauto.
  - cbn [state_cmp]. rewrite P, L, S. tauto.
  - cbn [state_cmp]. rewrite P, L, S. tauto.
  - apply L.
  - apply L.
Qed.
Print Assumptions C48_order_exact.
(** Different values feed different things to the hasher (the errors of one build: with the feature, or without it). *)
Lemma slice_prefix_free I (ieqb : I -> I -> bool) ihash : prefix_free ieqb ihash -> prefix_free (list_eqb ieqb) (slice_hash ihash).
Proof.
  intros H x y r s. unfold slice_hash. cbn [app]. intros E. inversion E as [[Hl He]]. clear E. revert y Hl r s He.
  induction x as [|a x IH]; intros [|b y] Hl r s He; cbn in Hl; try discriminate; cbn [list_eqb].
  - split; [reflexivity|exact He].
  - cbn [List.map concat] in He. rewrite <- !app_assoc in He. destruct (H _ _ _ _ He) as [-> He']. inversion Hl as [Hl'].
    destruct (IH y Hl' r s He') as [-> ->]. split; reflexivity.
Qed.
Theorem C48_hash_prefix_free : forall I T E (ieqb : I -> I -> bool) (teqb : T -> T -> bool) (eeqb : E -> E -> bool) ihash thash ehash,
  prefix_free ieqb ihash -> prefix_free teqb thash -> prefix_free eeqb ehash ->
  prefix_free (input_eqb ieqb) (input_hash ihash) /\ prefix_free (state_eqb ieqb teqb eeqb) (state_hash ihash thash ehash) /\
  prefix_free (slice_stream_eqb ieqb) (slice_stream_hash ihash) /\
  (forall x y r s, (x = EPlain <-> y = EPlain) -> error_hash ihash x ++ r = error_hash ihash y ++ s -> error_eqb ieqb x y = true /\ r = s).
Proof.
  intros I T E ieqb teqb eeqb ihash thash ehash Hi Ht He.
  pose proof (slice_prefix_free I ieqb ihash Hi) as Hs.
  assert (HI : prefix_free (input_eqb ieqb) (input_hash ihash)).
  { intros x y r s H. unfold input_hash in H. cbn [app] in H. inversion H as [[H1 H2]]. unfold input_eqb. rewrite H1, Nat.eqb_refl. cbn [andb].
    apply Hs. unfold slice_hash. cbn [app]. congruence. }
  split; [exact HI|]. split; [|split].
  - intros x y r s H. destruct x as [i t|b e|n| |], y as [j u|c f|m| |]; unfold state_hash in H; cbn [state_tag app] in H; try discriminate H;
      apply (f_equal (@tl nat)) in H as H1; cbn [tl] in H1; cbn [state_eqb state_tag Nat.eqb]; try (split; [reflexivity|exact H1]).
    + rewrite <- !app_assoc in H1. destruct (HI _ _ _ _ H1) as [-> H2]. destruct (Ht _ _ _ _ H2) as [-> ->]. split; reflexivity.
    + rewrite <- !app_assoc in H1. destruct (Hs _ _ _ _ H1) as [-> H2]. destruct (He _ _ _ _ H2) as [-> ->]. split; reflexivity.
    + cbn [app] in H1. inversion H1. rewrite Nat.eqb_refl. split; reflexivity.
  - intros x y r s H. unfold slice_stream_hash in H. cbn [app] in H. inversion H as [[H1 H2]]. unfold slice_stream_eqb. rewrite H1, Nat.eqb_refl. cbn [andb].
    apply Hs. unfold slice_hash. cbn [app]. congruence.
  - intros x y r s Hp H. destruct x, y; cbn [error_hash error_tag app] in H; try (inversion H as [H1]); cbn [error_eqb]; try (split; reflexivity);
      try (destruct Hp as [Hp1 Hp2]; discriminate (Hp1 eq_refl) || discriminate (Hp2 eq_refl)).
    + exact (Hi _ _ _ _ H1).
    + apply Hs. unfold slice_hash. cbn [app]. congruence.
Qed.
Print Assumptions C48_hash_prefix_free.
Lemma nat_prefix_free : prefix_free Nat.eqb (fun n => [n]).
Proof. intros x y r s H. inversion H. subst. rewrite Nat.eqb_refl. auto. Qed.
(** Numbers obey the laws, so do results over them. *)
Lemma nat_decides : decides Nat.eqb.
Proof. intros x y. apply Nat.eqb_eq. Qed.
Lemma nat_equivalence : equivalence Nat.eqb.
Proof. split; intros; [apply Nat.eqb_refl|apply Nat.eqb_sym|]. rewrite Nat.eqb_eq in *. congruence. Qed.
Lemma nat_hashes : hashes Nat.eqb (fun n => [n]).
Proof. intros x y H. apply Nat.eqb_eq in H. congruence. Qed.
Example C48_case :
  total_order (state_eqb Nat.eqb Nat.eqb (error_eqb Nat.eqb)) (state_cmp Nat.compare Nat.compare (error_cmp Nat.compare)) /\
  decides (state_eqb Nat.eqb Nat.eqb (error_eqb Nat.eqb)) /\
  state_cmp Nat.compare Nat.compare (error_cmp Nat.compare) (token true Nat.eqb 1 (mkInput false [1; 2])) (token true Nat.eqb 1 (mkInput false [1; 3])) = Lt /\
  state_eqb Nat.eqb Nat.eqb (error_eqb Nat.eqb) (token true Nat.eqb 1 (mkInput false [2])) (token true Nat.eqb 3 (mkInput false [2])) = false.
Proof.
  split; [|split; [|split; reflexivity]].
  - apply state_order; try exact nat_order. apply error_order. exact nat_order.
  - apply state_decides; try exact nat_decides. apply error_decides. exact nat_decides.
Qed.
Example C48_order_exact_case : word_less Nat.compare [1; 2] [1; 2; 0] /\ word_less Nat.compare [1; 2; 9] [1; 3] /\ word_same Nat.compare [1; 2] [1; 2] /\
  prefix_free (state_eqb Nat.eqb Nat.eqb Nat.eqb) (state_hash (fun n => [n]) (fun n => [n]) (fun n => [n])).
Proof.
  split; [exists [1; 2], [1; 2], [], [0]; repeat constructor|]. split; [exists [1], [1], [2; 9], [3]; repeat constructor|]. split; [repeat constructor|].
  apply C48_hash_prefix_free; exact nat_prefix_free.
Qed.

(** * C49 *)
(** Exactly when comparing reads memory that has never been written: when one of the two has such a slot before the first difference. *)
Theorem C49_eq_exact : forall I (ieqb : I -> I -> bool) (x y : fixed I), fixed_eqb ieqb x y = Undefined <->
  length (f_mem x) = length (f_mem y) /\
  exists l1 l2 r1 r2, f_mem x = List.map Some l1 ++ r1 /\ f_mem y = List.map Some l2 ++ r2 /\ list_eqb ieqb l1 l2 = true /\
    (List.hd_error r1 = Some None \/ List.hd_error r2 = Some None).
Proof.
  intros I ieqb x y. unfold fixed_eqb. destruct (Nat.eqb_spec (length (f_mem x)) (length (f_mem y))) as [L|L].
  - assert (G : memory_eqb ieqb (f_mem x) (f_mem y) = Undefined <-> exists l1 l2 r1 r2, f_mem x = List.map Some l1 ++ r1 /\ f_mem y = List.map Some l2 ++ r2 /\ list_eqb ieqb l1 l2 = true /\
        (List.hd_error r1 = Some None \/ List.hd_error r2 = Some None)).
    { rewrite memory_eqb_undefined. split.
      - intros (l1 & l2 & r1 & r2 & E1 & E2 & H & G). exists l1, l2, r1, r2. do 3 (split; [assumption|]).
        destruct G as [(r1' & z & r2' & -> & ->)|(r2' & z & r1' & -> & ->)]; [left|right]; reflexivity.
      - intros (l1 & l2 & r1 & r2 & E1 & E2 & H & G). exists l1, l2, r1, r2. do 3 (split; [assumption|]).
        assert (K : length l1 = length l2).
        { clear - H. revert l2 H. induction l1 as [|a l1 IH]; intros [|b l2] H; cbn in *; try discriminate; auto. apply andb_true_iff in H. f_equal. apply IH, H. }
        assert (R : length r1 = length r2). { rewrite E1, E2, !app_length, !map_length in L. lia. }
        destruct r1 as [|o1 r1], r2 as [|o2 r2]; cbn in R; try discriminate; cbn in G; [destruct G; discriminate|].
        destruct G as [G|G]; inversion G; subst; [left|right]; eauto. }
    rewrite <- G. destruct (memory_eqb ieqb (f_mem x) (f_mem y)); cbn [run_bind]; split; intros H; try discriminate; try (destruct H; discriminate); auto.
  - cbn [run_bind]. split; [discriminate|]. intros [H _]. contradiction.
Qed.
(** Printing: when there is such a slot at all. *)
Theorem C49_debug_exact : forall I (x : fixed I) (y : growing I),
  (fixed_debug x = Undefined <-> In None (f_mem x)) /\ (growing_debug y = Undefined <-> In None (g_mem y)).
Proof.
  assert (P : forall I (m : memory I), expose m = Undefined <-> In None m).
  { intros I m. rewrite expose_written. split.
    - intros H. induction m as [|[a|] m IH]; [exfalso; apply H; constructor| |left; reflexivity]. right. apply IH. intros G. apply H. constructor; [discriminate|exact G].
    - intros H G. unfold all_written in G. rewrite Forall_forall in G. exact (G None H eq_refl). }
  intros I x y. split; rewrite <- P; [unfold fixed_debug; destruct (expose_total (f_mem x)) as [->|(l & -> & _)]|
    unfold growing_debug; destruct (expose_total (g_mem y)) as [->|(l & -> & _)]]; cbn [run_bind]; split; auto; discriminate.
Qed.
(** So it happens to every new buffer, with safe code only: [with_size(n) == with_size(n)] and [format!("{:?}", with_size(n))]; and to a
    Source over it, and to a GrowingBuffer asked for space. *)
Theorem C49_fresh_refuted : forall I (ieqb : I -> I -> bool) size, 1 <= size -> exists b, fixed_with_size size = Done b /\
  fixed_eqb ieqb b b = Undefined /\ fixed_debug b = Undefined /\
  (forall St (s : St), src_debug fixed_debug (src_with_buffer s b) = Undefined) /\
  (forall n x, length (f_mem n) = size -> hd_error (f_mem n) = Some (Some x) -> fixed_eqb ieqb n b = Undefined).
Proof.
  intros I ieqb size H. unfold fixed_with_size. destruct (Nat.ltb_spec 0 size); [|lia]. cbn [assert run_bind]. eexists. split; [reflexivity|].
  assert (D : fixed_debug (mkFixed (repeat (None : option I) size) 0 0) = Undefined).
  { apply (proj1 (C49_debug_exact I _ (growing_with_limit 0 (fun _ => 0) 0))). cbn [f_mem]. destruct size; [lia|]. left. reflexivity. }
  split; [|split; [exact D|split]].
  - destruct size; [lia|]. unfold fixed_eqb. cbn [f_mem]. rewrite Nat.eqb_refl. reflexivity.
  - intros St s. unfold src_debug. cbn [src_with_buffer src_buffer]. rewrite D. reflexivity.
  - intros n x L G. unfold fixed_eqb. cbn [f_mem]. rewrite repeat_length, L, Nat.eqb_refl. destruct size; [lia|]. destruct (f_mem n) as [|o m]; inversion G; subst. reflexivity.
Qed.
Theorem C49_growing_refuted : forall I alloc limit n, 1 <= n -> exists b, growing_request_space (growing_with_limit 0 alloc limit) n = Done b /\
  @growing_debug I (growing_with_limit 0 alloc limit) = Done ([], 0, limit, 0) /\ @growing_debug I b = Undefined.
Proof.
  intros I alloc limit n H.
  destruct (proj1 (proj2 (proj2 (proj2 (proj2 (proj2 (proj2 (C27_growing I 0 alloc limit _ _ _ (r_new _ _)))))))) n) as (b & E).
  exists b. split; [assumption|]. split; [reflexivity|]. apply (proj2 (C49_debug_exact I (mkFixed [] 0 0) _)).
    unfold growing_request_space, growing_with_limit in E. cbn [g_cap g_limit] in E. assert (K : negb (limit =? 0) && (limit <? 0) = false) by (destruct limit; reflexivity).
    rewrite K in E. cbn [growing_len usize_sub g_populated g_used Nat.leb Nat.sub run_bind] in E. destruct (Nat.ltb_spec 0 (n + 0)); [|lia].
    unfold growing_reserve in E. cbn [g_cap g_mem length Nat.sub] in E. destruct (Nat.leb_spec n 0); [lia|].
    unfold growing_set_len, usize_sub in E. cbn [g_cap g_mem g_populated g_used g_limit g_alloc g_count length Nat.leb Nat.sub run_bind app Nat.add] in E. rewrite repeat_length, !Nat.sub_0_r in E.
    destruct (Nat.ltb_spec (n + alloc 0) n); [lia|]. inversion E; subst. cbn [g_mem]. destruct n; [lia|]. left. reflexivity.
Qed.

(** What does hold: everything up to [populated] has been written, consumed or not, *)
(** Missing in the three theorems: buffers with memory not yet written; there the claim is false ([C49_fresh_refuted], [C49_growing_refuted], [C49_data_refuted]). *)
Theorem C49_populated_partial : forall I size b0 b (got : list I) gone, fixed_with_size size = Done b0 -> reached (fixed_ops I) b0 b got gone ->
  all_written (firstn (f_populated b) (f_mem b)).
Proof.
  intros I size b0 b got gone H0 H. assert (Z : f_populated b0 = 0).
  { unfold fixed_with_size in H0. destruct (0 <? size); cbn in H0; inversion H0; reflexivity. }
  induction H as [|b got gone k b' H IH Hr|b got gone k b' H IH Hk Hr|St ds s s' b got gone b' r H IH Ho Hr].
  - rewrite Z. constructor.
  - destruct (C27_fixed _ _ _ _ _ _ H0 H) as (Hu & Hp & _). cbn [fixed_ops op_request_space] in Hr. unfold fixed_request_space in Hr.
    replace (f_used b <=? f_populated b) with true in Hr by (symmetry; apply Nat.leb_le; assumption). cbn [assert run_bind] in Hr.
    unfold usize_sub in Hr. replace (f_populated b <=? length (f_mem b)) with true in Hr by (symmetry; apply Nat.leb_le; assumption). cbn [run_bind] in Hr.
    destruct (length (f_mem b) - f_populated b <? k); [|inversion Hr; subst; assumption].
    replace (f_used b <=? f_populated b) with true in Hr by (symmetry; apply Nat.leb_le; assumption). cbn [run_bind] in Hr.
    unfold copy_down in Hr. destruct (_ <=? length (f_mem b)); cbn [run_bind] in Hr; inversion Hr; subst. cbn [f_mem f_populated].
    assert (L : length (firstn (f_populated b - f_used b) (skipn (f_used b) (f_mem b))) = f_populated b - f_used b) by (rewrite firstn_length, skipn_length; lia).
    rewrite firstn_app, L, Nat.sub_diag, app_nil_r, firstn_firstn, Nat.min_id, firstn_skipn_comm. replace (f_used b + (f_populated b - f_used b)) with (f_populated b) by lia.
    apply written_skipn. assumption.
  - cbn [fixed_ops op_consume] in Hr. unfold fixed_consume in Hr. destruct (assert _); cbn [run_bind] in Hr; inversion Hr; subst. assumption.
  - destruct (C27_fixed _ _ _ _ _ _ H0 H) as (Hu & Hp & _). cbn [fixed_ops op_fill] in Hr. unfold fixed_fill in Hr.
    replace (f_populated b <=? length (f_mem b)) with true in Hr by (symmetry; apply Nat.leb_le; assumption). cbn [assert run_bind] in Hr.
    destruct (ds_read (logged ds) (mkLog s got false) (length (f_mem b) - f_populated b)) as [[s1 w] r1] eqn:E. destruct r1 as [n|e].
    + pose proof (obeys_logged Ho) as Ho'. destruct (Ho' _ _ _ _ _ E) as (Hn & c & Hc & Hw).
      destruct (assert _); cbn [run_bind] in Hr; inversion Hr; subst. cbn [f_mem f_populated].
      assert (L : length (firstn (f_populated b) (f_mem b)) = f_populated b) by (rewrite firstn_length; lia).
      rewrite firstn_app, L, firstn_firstn, Nat.min_r by lia. apply written_app. split; [assumption|].
      replace (f_populated b + length c - f_populated b) with (length c) by lia.
      assert (K : length c <= length (skipn (f_populated b) (f_mem b))) by (rewrite skipn_length; assumption).
      unfold writes in Hw. clear - Hw K. revert w Hw K. generalize (skipn (f_populated b) (f_mem b)) as m. induction c as [|x c IH]; intros m w Hw K; [constructor|].
      destruct w as [|o w]; [discriminate|]. cbn in Hw. inversion Hw; subst. destruct m as [|y m]; [cbn in K; lia|]. cbn. constructor; [discriminate|]. apply IH; [assumption|cbn in K; lia].
    + inversion Hr; subst. cbn [f_mem f_populated].
      assert (L : length (firstn (f_populated b) (f_mem b)) = f_populated b) by (rewrite firstn_length; lia).
      rewrite firstn_app, L, Nat.sub_diag, app_nil_r, firstn_firstn, Nat.min_id. assumption.
Qed.
(** so a buffer that has been full once can be compared and printed for ever after. *)
Theorem C49_full_partial : forall I (ieqb : I -> I -> bool) size b0 b (got : list I) gone b', fixed_with_size size = Done b0 -> reached (fixed_ops I) b0 b got gone ->
  f_populated b = size -> since (fixed_ops I) b b' ->
  (exists l, fixed_debug b' = Done (l, f_populated b', f_used b') /\ length l = size /\ firstn (f_populated b' - f_used b') (skipn (f_used b') l) = somes (firstn (f_populated b' - f_used b') (skipn (f_used b') (f_mem b')))) /\
  ((forall x, ieqb x x = true) -> fixed_eqb ieqb b' b' = Done true).
Proof.
  intros I ieqb size b0 b got gone b' H0 H Hp Hs. destruct (C27_fixed _ _ _ _ _ _ H0 H) as (_ & _ & Hl & _).
  assert (W : all_written (f_mem b)). { pose proof (C49_populated_partial _ _ _ _ _ _ H0 H) as W. rewrite Hp, <- Hl, firstn_all in W. exact W. }
  pose proof (fixed_since_written W Hs) as W'. split.
  - destruct (expose_done W') as (l & E & M). exists l. unfold fixed_debug. rewrite E. cbn [run_bind]. split; [reflexivity|]. split.
    + assert (G : length (f_mem b') = length (f_mem b)).
      { clear - Hs. induction Hs as [|b1 k b2 Hs IH E|b1 k b2 Hs IH E|b1 St ds s s' r b2 Hs IH Ho E]; auto; rewrite <- IH; cbn [fixed_ops op_request_space op_consume op_fill] in E.
        - unfold fixed_request_space in E. destruct (assert _); cbn [run_bind] in E; try discriminate. destruct (usize_sub (length (f_mem b1)) _) as [x| | |]; cbn [run_bind] in E; try discriminate.
          destruct (x <? k); [|inversion E; subst; reflexivity]. destruct (usize_sub _ _) as [y| | |]; cbn [run_bind] in E; try discriminate.
          unfold copy_down in E. destruct (Nat.leb_spec (f_used b1 + y) (length (f_mem b1))); cbn [run_bind] in E; inversion E; subst. cbn [f_mem].
          rewrite app_length, firstn_length, !skipn_length. lia.
        - unfold fixed_consume in E. destruct (assert _); cbn [run_bind] in E; inversion E; subst. reflexivity.
        - assert (O : forall (w m : memory I), length (overwrite w m) = length m).
          { induction w as [|[x|] w IHw]; intros [|y m]; cbn; auto. }
          unfold fixed_fill in E. destruct (Nat.leb_spec (f_populated b1) (length (f_mem b1))); cbn [assert run_bind] in E; try discriminate.
          destruct (ds_read ds s _) as [[s1 w] [n|e]].
          + destruct (assert _); cbn [run_bind] in E; inversion E; subst. cbn [f_mem]. rewrite app_length, O, firstn_length, skipn_length. lia.
          + inversion E; subst. cbn [f_mem]. rewrite app_length, O, firstn_length, skipn_length. lia. }
      rewrite M, map_length in G. rewrite G. assumption.
    + rewrite M, skipn_map, firstn_map, somes_map. reflexivity.
  - intros R. unfold fixed_eqb. rewrite Nat.eqb_refl, (memory_eqb_same ieqb R W'). cbn [run_bind]. rewrite !Nat.eqb_refl. reflexivity.
Qed.
(** Equal buffers are the same buffers, so they hold the same data; *)
Theorem C49_equal_partial : forall I (ieqb : I -> I -> bool) x y, decides ieqb -> fixed_eqb ieqb x y = Done true -> x = y.
Proof.
  intros I ieqb [m p u] [m' p' u'] H E. unfold fixed_eqb in E. cbn [f_mem f_populated f_used] in E. destruct (length m =? length m'); cbn [run_bind] in E; [|discriminate].
  destruct (memory_eqb ieqb m m') as [[|]| | |] eqn:M; cbn in E; try discriminate. apply (memory_eqb_true H) in M. destruct M as [-> _].
  inversion E as [G]. apply andb_true_iff in G. destruct G as [G1 G2]. apply Nat.eqb_eq in G1, G2. subst. reflexivity.
Qed.
(** but buffers holding the same data need not be equal: what has been consumed counts. *)
Theorem C49_data_refuted : forall I (ieqb : I -> I -> bool) x y z, ieqb x y = false -> exists b0 b1 b2,
  fixed_with_size 2 = Done b0 /\ reached (fixed_ops I) b0 b1 [x; z] 1 /\ reached (fixed_ops I) b0 b2 [y; z] 1 /\
  fixed_deref b1 = fixed_deref b2 /\ fixed_eqb ieqb b1 b2 = Done false.
Proof.
  intros I ieqb x y z H. exists (mkFixed [None; None] 0 0), (mkFixed [Some x; Some z] 2 1), (mkFixed [Some y; Some z] 2 1).
  split; [reflexivity|].
  assert (R : forall a, reached (fixed_ops I) (mkFixed [None; None] 0 0) (mkFixed [Some a; Some z] 2 1) [a; z] 1).
  { intros a. apply (@r_consume I _ (fixed_ops I) _ (mkFixed [Some a; Some z] 2 0) [a; z] 0 1); [|cbn; lia|reflexivity].
    set (ds := mkDataSource (fun (s : unit) n => if n =? 2 then (s, [Some a; Some z], IoOk 2) else (s, [], IoOk 0)) : data_source unit I).
    assert (O : obeys ds).
    { intros s n s' w k E. cbn in E. destruct (Nat.eqb_spec n 2); inversion E; subst; [split; [lia|exists [a; z]; split; reflexivity]|split; [lia|exists []; split; reflexivity]]. }
    apply (@r_fill I _ (fixed_ops I) _ unit ds tt (mkLog tt [a; z] false) (mkFixed [None; None] 0 0) [] 0 _ (IoOk 2)); [apply r_new|exact O|reflexivity]. }
  split; [apply R|]. split; [apply R|]. split; [reflexivity|]. unfold fixed_eqb. cbn. rewrite H. reflexivity.
Qed.
(** What [Debug] shows of a Source says everything about it but the data source: the buffer, the request and the flags. *)
Theorem C49_source : forall St I (x y : src St (fixed I)) d, src_debug fixed_debug x = Done d -> src_debug fixed_debug y = Done d ->
  y = mkSrc (src_source y) (src_buffer x) (src_request x) (src_incomplete x) (src_eoi x) (src_auto x).
Proof.
  intros St I x y d Hx Hy. unfold src_debug, fixed_debug in Hx, Hy.
  destruct (expose_total (f_mem (src_buffer x))) as [Ex|(lx & Ex & Mx)]; rewrite Ex in Hx; cbn [run_bind] in Hx; [discriminate|].
  destruct (expose_total (f_mem (src_buffer y))) as [Ey|(ly & Ey & My)]; rewrite Ey in Hy; cbn [run_bind] in Hy; [discriminate|].
  destruct x as [sx [mx px ux] rx ix ex ax], y as [sy [my py uy] ry iy ey ay]. cbn in *. congruence.
Qed.
Example C49_source_case : src_debug fixed_debug (mkSrc tt (mkFixed [Some 7; Some 8] 2 1) 3 true false true) = Done ([7; 8], 2, 1, 3, (true, false, true)).
Proof. reflexivity. Qed.
Print Assumptions C49_source.
Print Assumptions C49_eq_exact.
Print Assumptions C49_debug_exact.
Print Assumptions C49_fresh_refuted.
Print Assumptions C49_growing_refuted.
Print Assumptions C49_populated_partial.
Print Assumptions C49_full_partial.
Print Assumptions C49_equal_partial.
Print Assumptions C49_data_refuted.
(** A full buffer, and the same after consuming an item and moving the rest to the front. *)
Example C49_case_full : exists b0 b, fixed_with_size 2 = Done b0 /\ reached (fixed_ops nat) b0 b [7; 8] 0 /\ f_populated b = 2 /\
  since (fixed_ops nat) b (mkFixed [Some 8; Some 8] 1 0) /\ fixed_debug (mkFixed [Some 8; Some 8] 1 0) = Done ([8; 8], 1, 0).
Proof.
  exists (mkFixed [None; None] 0 0), (mkFixed [Some 7; Some 8] 2 0). split; [reflexivity|].
  set (ds := mkDataSource (fun (s : unit) n => if n =? 2 then (s, [Some 7; Some 8], IoOk 2) else (s, [], IoOk 0)) : data_source unit nat).
  assert (O : obeys ds).
  { intros s n s' w k E. cbn in E. destruct (Nat.eqb_spec n 2); inversion E; subst; [split; [lia|exists [7; 8]; split; reflexivity]|split; [lia|exists []; split; reflexivity]]. }
  split; [|split; [reflexivity|split; [|reflexivity]]].
  - apply (@r_fill nat _ (fixed_ops nat) _ unit ds tt (mkLog tt [7; 8] false) (mkFixed [None; None] 0 0) [] 0 _ (IoOk 2)); [apply r_new|exact O|reflexivity].
  - apply s_request with (b1 := mkFixed [Some 7; Some 8] 2 1) (k := 1); [|reflexivity].
    apply s_consume with (b1 := mkFixed [Some 7; Some 8] 2 0) (k := 1); [apply s_now|reflexivity].
Qed.
