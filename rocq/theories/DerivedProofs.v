(** Proofs about derived implementations. *)
From Coq Require Import List Bool Arith Lia.
From Verif Require Import Base Parsers Buffer Stream Derived SpecBuffer SpecDerived BufferProofs.
Import ListNotations.

Set Implicit Arguments.

(** * Equality *)

Section Equality.
  Context {A : Type}.
  Variable eqb : A -> A -> bool.

  Lemma list_refl : (forall x, eqb x x = true) -> forall l, list_eqb eqb l l = true.
  Proof. intros H. induction l as [|x l IH]; cbn; [reflexivity|]. rewrite H, IH. reflexivity. Qed.
  Lemma list_sym : (forall x y, eqb x y = eqb y x) -> forall l k, list_eqb eqb l k = list_eqb eqb k l.
  Proof. intros H. induction l as [|x l IH]; intros [|y k]; cbn; auto. rewrite H, IH. reflexivity. Qed.
  Lemma list_trans : (forall x y z, eqb x y = true -> eqb y z = true -> eqb x z = true) ->
    forall l k j, list_eqb eqb l k = true -> list_eqb eqb k j = true -> list_eqb eqb l j = true.
  Proof.
    intros H. induction l as [|x l IH]; intros [|y k] [|z j]; cbn; auto; try discriminate.
    intros H1 H2. apply andb_true_iff in H1, H2. destruct H1, H2. apply andb_true_iff. eauto.
  Qed.
  Lemma list_equivalence : equivalence eqb -> equivalence (list_eqb eqb).
  Proof. intros [H1 H2 H3]. split; [apply list_refl|apply list_sym|apply list_trans]; assumption. Qed.
  Lemma list_decides : decides eqb -> decides (list_eqb eqb).
  Proof.
    intros H. unfold decides in *. induction x as [|x l IH]; intros [|y k]; cbn; split; intros G; try discriminate; auto.
    - apply andb_true_iff in G. destruct G as [G1 G2]. apply H in G1. apply IH in G2. congruence.
    - inversion G; subst. apply andb_true_iff. split; [apply H|apply IH]; reflexivity.
  Qed.
  Lemma list_hashes : forall hash, hashes eqb hash -> hashes (list_eqb eqb) (slice_hash hash).
  Proof.
    intros hash H l k G. unfold slice_hash. assert (length l = length k /\ concat (List.map hash l) = concat (List.map hash k)) as [-> ->]; [|reflexivity].
    revert k G. induction l as [|x l IH]; intros [|y k] G; cbn in *; try discriminate; auto.
    apply andb_true_iff in G. destruct G as [G1 G2]. apply H in G1. apply IH in G2. destruct G2 as [-> ->]. rewrite G1. auto.
  Qed.
End Equality.

Lemma bits_eqb : forall x y, (mode_bits x =? mode_bits y) = Bool.eqb x y.
Proof. intros [] []; reflexivity. Qed.

Ltac split_andb := repeat match goal with H : _ && _ = true |- _ => apply andb_true_iff in H; destruct H end.

(** * Order *)

Lemma then_opp : forall c d, CompOpp (then_cmp c d) = then_cmp (CompOpp c) (CompOpp d).
Proof. intros [] []; reflexivity. Qed.

Section Order.
  Context {A : Type}.
  Variables (eqb : A -> A -> bool) (cmp : A -> A -> comparison).
  Hypothesis H : total_order eqb cmp.

  (** Equal values compare alike. *)
  Lemma ord_eq_l : forall x y z, cmp x y = Eq -> cmp x z = cmp y z.
  Proof.
    intros x y z G. pose proof (ord_dual H x y) as D. rewrite G in D. cbn in D.
    destruct (cmp y z) eqn:E; [eapply (ord_trans H); eauto| |].
    - destruct (cmp x z) eqn:F; auto; exfalso.
      + assert (cmp y z = Eq) by (eapply (ord_trans H); eauto). congruence.
      + pose proof (ord_dual H x z) as F'. rewrite F in F'. cbn in F'. assert (cmp y x = Lt) by (eapply (ord_trans H); eauto). congruence.
    - destruct (cmp x z) eqn:F; auto; exfalso.
      + assert (cmp y z = Eq) by (eapply (ord_trans H); eauto). congruence.
      + pose proof (ord_dual H x z) as F'. rewrite F in F'. cbn in F'. assert (cmp y x = Gt) by (eapply (ord_trans H); eauto). congruence.
  Qed.
  Lemma ord_eq_r : forall x y z, cmp y z = Eq -> cmp x y = cmp x z.
  Proof.
    intros x y z G. rewrite (ord_dual H y x), (ord_dual H z x). f_equal. apply ord_eq_l. exact G.
  Qed.
End Order.

Lemma then_trans : forall A B (ea : A -> A -> bool) (ca : A -> A -> comparison), total_order ea ca ->
  forall (cb : B -> B -> comparison) (x y z : A) (u v w : B), (forall c, cb u v = c -> cb v w = c -> cb u w = c) ->
  forall c, then_cmp (ca x y) (cb u v) = c -> then_cmp (ca y z) (cb v w) = c -> then_cmp (ca x z) (cb u w) = c.
Proof.
  intros A B ea ca H cb x y z u v w Hb c H1 H2.
  destruct (ca x y) eqn:E.
  - rewrite (ord_eq_l H x y z E). cbn in H1. destruct (ca y z) eqn:F; cbn in *; auto.
  - cbn in H1. subst c. destruct (ca y z) eqn:F; cbn in H2.
    + rewrite <- (ord_eq_r H x y z F), E. reflexivity.
    + rewrite (ord_trans H x y z E F). reflexivity.
    + discriminate.
  - cbn in H1. subst c. destruct (ca y z) eqn:F; cbn in H2.
    + rewrite <- (ord_eq_r H x y z F), E. reflexivity.
    + discriminate.
    + rewrite (ord_trans H x y z E F). reflexivity.
Qed.

Lemma then_eq : forall c d, then_cmp c d = Eq <-> c = Eq /\ d = Eq.
Proof. intros [] []; cbn; split; intros H; try discriminate; try (destruct H; discriminate); auto. Qed.

Lemma nat_order : total_order Nat.eqb Nat.compare.
Proof.
  split; intros.
  - rewrite Nat.compare_eq_iff, Nat.eqb_eq. reflexivity.
  - apply Nat.compare_antisym.
  - destruct c; rewrite ?Nat.compare_eq_iff, ?Nat.compare_lt_iff, ?Nat.compare_gt_iff in *; lia.
Qed.

Lemma list_order : forall A eqb (cmp : A -> A -> comparison), total_order eqb cmp -> total_order (list_eqb eqb) (slice_cmp cmp).
Proof.
  intros A eqb cmp H. split.
  - induction x as [|x l IH]; intros [|y k]; cbn; split; intros G; try discriminate; auto.
    + apply then_eq in G. destruct G as [G1 G2]. apply (ord_eq H) in G1. apply IH in G2. rewrite G1, G2. reflexivity.
    + split_andb. apply then_eq. split; [apply (ord_eq H)|apply IH]; assumption.
  - induction x as [|x l IH]; intros [|y k]; cbn; auto. rewrite then_opp, <- (ord_dual H), <- IH. reflexivity.
  - induction x as [|x l IH]; intros [|y k] [|z j] c; cbn; try congruence.
    intros H1 H2. exact (then_trans H (slice_cmp cmp) x y z l k j (IH k j) H1 H2).
Qed.

Section Items.
  Context {I : Type}.
  Variables (ieqb : I -> I -> bool) (icmp : I -> I -> comparison) (ihash : I -> list nat).

  Lemma input_equivalence : equivalence ieqb -> equivalence (input_eqb ieqb).
  Proof.
    intros H. apply list_equivalence in H. destruct H as [H1 H2 H3]. split; unfold input_eqb; intros; rewrite ?bits_eqb in *.
    - rewrite Bool.eqb_reflx, H1. reflexivity.
    - rewrite H2. f_equal. destruct (last x), (last y); reflexivity.
    - split_andb. apply andb_true_iff. split; [|eauto]. rewrite Bool.eqb_true_iff in *. congruence.
  Qed.
  Lemma input_decides : decides ieqb -> decides (input_eqb ieqb).
  Proof.
    intros H [l b] [l' b']. apply list_decides in H. unfold input_eqb. cbn [last buf]. rewrite bits_eqb, andb_true_iff, Bool.eqb_true_iff, (H b b').
    split; [intros [-> ->]; reflexivity|]. intros G. inversion G. auto.
  Qed.
  Lemma input_order : total_order ieqb icmp -> total_order (input_eqb ieqb) (input_cmp icmp).
  Proof.
    intros H. apply list_order in H. split; unfold input_eqb, input_cmp; intros.
    - rewrite then_eq, andb_true_iff, (ord_eq H), (ord_eq nat_order). reflexivity.
    - rewrite then_opp, <- (ord_dual H), <- (ord_dual nat_order). reflexivity.
    - exact (then_trans nat_order (slice_cmp icmp) _ _ _ _ _ _ (ord_trans H _ _ _) H0 H1).
  Qed.
  Lemma input_hashes : hashes ieqb ihash -> hashes (input_eqb ieqb) (input_hash ihash).
  Proof.
    intros H [l b] [l' b'] G. unfold input_eqb in G. split_andb. cbn [last buf] in *. apply (list_hashes H) in H1. apply Nat.eqb_eq in H0.
    unfold input_hash. cbn [last buf]. rewrite H0, H1. reflexivity.
  Qed.

  Lemma error_equivalence : equivalence ieqb -> equivalence (error_eqb ieqb).
  Proof.
    intros H. pose proof (list_equivalence H) as L. split.
    - intros []; cbn; auto; [apply (eq_refl_law H)|apply (eq_refl_law L)].
    - intros [] []; cbn; auto; [apply (eq_sym_law H)|apply (eq_sym_law L)].
    - intros [] [] []; cbn; auto; try discriminate; [apply (eq_trans_law H)|apply (eq_trans_law L)].
  Qed.
  Lemma error_decides : decides ieqb -> decides (error_eqb ieqb).
  Proof.
    intros H. pose proof (list_decides H) as L. intros [a| |a|] [b| |b|]; cbn; split; intros G; try discriminate; auto; try (apply H in G; congruence);
      try (apply L in G; congruence); inversion G; [apply H|apply L]; reflexivity.
  Qed.
  Lemma error_order : total_order ieqb icmp -> total_order (error_eqb ieqb) (error_cmp icmp).
  Proof.
    intros H. pose proof (list_order H) as L. split.
    - intros [] []; cbn; split; intros G; try discriminate; auto; first [apply (ord_eq H) in G|apply (ord_eq L) in G]; assumption.
    - intros [] []; cbn; auto; [apply (ord_dual H)|apply (ord_dual L)].
    - intros [] [] [] c; cbn; try congruence; [apply (ord_trans H)|apply (ord_trans L)].
  Qed.
  Lemma error_hashes : hashes ieqb ihash -> hashes (error_eqb ieqb) (error_hash ihash).
  Proof.
    intros H [a| |a|] [b| |b|] G; cbn in *; try discriminate; auto; f_equal; [apply H|apply (list_hashes H)]; assumption.
  Qed.

  Section Values.
    Context {T E : Type}.
    Variables (teqb : T -> T -> bool) (tcmp : T -> T -> comparison) (thash : T -> list nat).
    Variables (eeqb : E -> E -> bool) (ecmp : E -> E -> comparison) (ehash : E -> list nat).

    Lemma state_equivalence : equivalence ieqb -> equivalence teqb -> equivalence eeqb -> equivalence (state_eqb ieqb teqb eeqb).
    Proof.
      intros Hi Ht He. pose proof (list_equivalence Hi) as L. pose proof (input_equivalence Hi) as N. split.
      - intros []; cbn; auto.
        + rewrite (eq_refl_law N), (eq_refl_law Ht). reflexivity.
        + rewrite (eq_refl_law L), (eq_refl_law He). reflexivity.
        + apply Nat.eqb_refl.
      - intros [] []; cbn; auto.
        + rewrite (eq_sym_law N), (eq_sym_law Ht). reflexivity.
        + rewrite (eq_sym_law L), (eq_sym_law He). reflexivity.
        + apply Nat.eqb_sym.
      - intros [] [] []; cbn; auto; try discriminate; intros; split_andb; try (apply andb_true_iff; split).
        + eapply (eq_trans_law N); eauto.
        + eapply (eq_trans_law Ht); eauto.
        + eapply (eq_trans_law L); eauto.
        + eapply (eq_trans_law He); eauto.
        + rewrite Nat.eqb_eq in *. congruence.
    Qed.
    Lemma state_decides : decides ieqb -> decides teqb -> decides eeqb -> decides (state_eqb ieqb teqb eeqb).
    Proof.
      intros Hi Ht He. pose proof (list_decides Hi) as L. pose proof (input_decides Hi) as N.
      intros [i t|b e|n| |] [j u|c f|m| |]; cbn; split; intros G; try discriminate; auto; split_andb.
      - apply N in H. apply Ht in H0. congruence.
      - inversion G; subst. apply andb_true_iff. split; [apply N|apply Ht]; reflexivity.
      - apply L in H. apply He in H0. congruence.
      - inversion G; subst. apply andb_true_iff. split; [apply L|apply He]; reflexivity.
      - apply Nat.eqb_eq in G. congruence.
      - inversion G; subst. apply Nat.eqb_refl.
    Qed.
    Lemma state_order : total_order ieqb icmp -> total_order teqb tcmp -> total_order eeqb ecmp ->
      total_order (state_eqb ieqb teqb eeqb) (state_cmp icmp tcmp ecmp).
    Proof.
      intros Hi Ht He. pose proof (list_order Hi) as L. pose proof (input_order Hi) as N. split.
      - intros [i t|b e|n| |] [j u|c f|m| |]; cbn; try (split; intros G; (discriminate || reflexivity)).
        + rewrite then_eq, andb_true_iff, (ord_eq N), (ord_eq Ht). reflexivity.
        + rewrite then_eq, andb_true_iff, (ord_eq L), (ord_eq He). reflexivity.
        + apply (ord_eq nat_order).
      - intros [i t|b e|n| |] [j u|c f|m| |]; cbn; auto.
        + rewrite then_opp, <- (ord_dual N), <- (ord_dual Ht). reflexivity.
        + rewrite then_opp, <- (ord_dual L), <- (ord_dual He). reflexivity.
        + apply (ord_dual nat_order).
      - intros [i t|b e|n| |] [j u|c f|m| |] [k v|d g|o| |] x; cbn; try congruence; intros G1 G2.
        + exact (then_trans N tcmp _ _ _ _ _ _ (ord_trans Ht _ _ _) G1 G2).
        + exact (then_trans L ecmp _ _ _ _ _ _ (ord_trans He _ _ _) G1 G2).
        + exact (ord_trans nat_order _ _ _ G1 G2).
    Qed.
    Lemma state_hashes : hashes ieqb ihash -> hashes teqb thash -> hashes eeqb ehash ->
      hashes (state_eqb ieqb teqb eeqb) (state_hash ihash thash ehash).
    Proof.
      intros Hi Ht He [i t|b e|n| |] [j u|c f|m| |] G; cbn in *; try discriminate; auto; split_andb; unfold state_hash; cbn [state_tag]; f_equal.
      - rewrite (input_hashes Hi _ _ H), (Ht _ _ H0). reflexivity.
      - rewrite (list_hashes Hi _ _ H), (He _ _ H0). reflexivity.
      - apply Nat.eqb_eq in G. congruence.
    Qed.

    Lemma parse_error_equivalence : equivalence ieqb -> equivalence eeqb -> equivalence (parse_error_eqb ieqb eeqb).
    Proof.
      intros Hi He. pose proof (list_equivalence Hi) as L. split.
      - intros []; cbn; [rewrite (eq_refl_law L), (eq_refl_law He); reflexivity|apply Nat.eqb_refl].
      - intros [] []; cbn; auto; [rewrite (eq_sym_law L), (eq_sym_law He); reflexivity|apply Nat.eqb_sym].
      - intros [] [] []; cbn; auto; try discriminate; intros; split_andb; try (apply andb_true_iff; split).
        + eapply (eq_trans_law L); eauto.
        + eapply (eq_trans_law He); eauto.
        + rewrite Nat.eqb_eq in *. congruence.
    Qed.
    Lemma parse_error_decides : decides ieqb -> decides eeqb -> decides (parse_error_eqb ieqb eeqb).
    Proof.
      intros Hi He. pose proof (list_decides Hi) as L. intros [b e|n] [c f|m]; cbn; split; intros G; try discriminate; auto; split_andb.
      - apply L in H. apply He in H0. congruence.
      - inversion G; subst. apply andb_true_iff. split; [apply L|apply He]; reflexivity.
      - apply Nat.eqb_eq in G. congruence.
      - inversion G; subst. apply Nat.eqb_refl.
    Qed.
  End Values.

  Lemma slice_stream_equivalence : equivalence ieqb -> equivalence (slice_stream_eqb ieqb).
  Proof.
    intros H. apply list_equivalence in H. destruct H as [H1 H2 H3]. split; unfold slice_stream_eqb; intros.
    - rewrite Nat.eqb_refl, H1. reflexivity.
    - rewrite H2, Nat.eqb_sym. reflexivity.
    - split_andb. apply andb_true_iff. split; [|eauto]. rewrite Nat.eqb_eq in *. congruence.
  Qed.
  Lemma slice_stream_decides : decides ieqb -> decides (slice_stream_eqb ieqb).
  Proof.
    intros H [p b] [p' b']. apply list_decides in H. unfold slice_stream_eqb. cbn [ss_pos ss_slice]. rewrite andb_true_iff, Nat.eqb_eq, (H b b').
    split; [intros [-> ->]; reflexivity|]. intros G. inversion G. auto.
  Qed.
  Lemma slice_stream_hashes : hashes ieqb ihash -> hashes (slice_stream_eqb ieqb) (slice_stream_hash ihash).
  Proof.
    intros H [p b] [p' b'] G. unfold slice_stream_eqb in G. split_andb. cbn [ss_pos ss_slice] in *. apply (list_hashes H) in H1. apply Nat.eqb_eq in H0.
    unfold slice_stream_hash. cbn [ss_pos ss_slice]. rewrite H0, H1. reflexivity.
  Qed.
End Items.

(** * Buffers *)

Section Memory.
  Context {I : Type}.
  Variable ieqb : I -> I -> bool.

  Lemma expose_written : forall m : memory I, expose m = Undefined <-> ~ all_written m.
  Proof.
    intros m. split.
    - intros H G. induction m as [|[x|] m IH]; cbn in H; try discriminate.
      + apply IH; [destruct (expose m); try discriminate; reflexivity|]. inversion G; assumption.
      + inversion G; congruence.
    - intros G. induction m as [|[x|] m IH]; cbn; auto.
      + exfalso. apply G. constructor.
      + rewrite IH; [reflexivity|]. intros G'. apply G. constructor; [discriminate|exact G'].
  Qed.
  Lemma expose_done : forall m : memory I, all_written m -> exists l, expose m = Done l /\ m = List.map Some l.
  Proof.
    induction m as [|[x|] m IH]; intros H; cbn.
    - exists []. auto.
    - inversion H; subst. destruct (IH H3) as (l & -> & ->). exists (x :: l). auto.
    - inversion H; congruence.
  Qed.
  Lemma expose_total : forall m : memory I, expose m = Undefined \/ exists l, expose m = Done l /\ m = List.map Some l.
  Proof.
    induction m as [|[x|] m IH]; cbn; auto.
    - right. exists []. auto.
    - destruct IH as [IH|(l & IH & Hm)]; rewrite IH; [left; reflexivity|]. right. exists (x :: l). subst. auto.
  Qed.

  (** The comparison runs into an unwritten slot before any difference. *)
  Lemma memory_eqb_undefined : forall m1 m2 : memory I, memory_eqb ieqb m1 m2 = Undefined <->
    exists l1 l2 r1 r2, m1 = List.map Some l1 ++ r1 /\ m2 = List.map Some l2 ++ r2 /\ list_eqb ieqb l1 l2 = true /\
      ((exists r1' x r2', r1 = None :: r1' /\ r2 = x :: r2') \/ (exists r2' x r1', r2 = None :: r2' /\ r1 = x :: r1')).
  Proof.
    intros m1 m2. split.
    - revert m2. induction m1 as [|[x|] m1 IH]; intros [|[y|] m2] H; cbn in H; try discriminate.
      + destruct (ieqb x y) eqn:E; [|discriminate]. destruct (IH _ H) as (l1 & l2 & r1 & r2 & -> & -> & G1 & G2).
        exists (x :: l1), (y :: l2), r1, r2. cbn. rewrite E, G1. auto.
      + exists [], [], (Some x :: m1), (None :: m2). cbn. do 3 (split; [reflexivity|]). right. eauto.
      + exists [], [], (None :: m1), (Some y :: m2). cbn. do 3 (split; [reflexivity|]). left. eauto.
      + exists [], [], (None :: m1), (None :: m2). cbn. do 3 (split; [reflexivity|]). left. eauto.
    - intros (l1 & l2 & r1 & r2 & -> & -> & H & G). revert l2 H. induction l1 as [|x l1 IH]; intros [|y l2] H; cbn in H; try discriminate.
      + cbn. destruct G as [(r1' & x & r2' & -> & ->)|(r2' & x & r1' & -> & ->)]; destruct x; reflexivity.
      + split_andb. cbn. rewrite H. apply IH. assumption.
  Qed.
  Lemma memory_eqb_true : decides ieqb -> forall m1 m2 : memory I, memory_eqb ieqb m1 m2 = Done true -> m1 = m2 /\ all_written m1.
  Proof.
    intros H. induction m1 as [|[x|] m1 IH]; intros [|[y|] m2] G; cbn in G; try discriminate; [split; [reflexivity|constructor]|].
    destruct (ieqb x y) eqn:E; [|discriminate]. apply H in E. apply IH in G. destruct G as [-> G]. subst. split; [reflexivity|].
    constructor; [discriminate|exact G].
  Qed.
  Lemma memory_eqb_same : (forall x, ieqb x x = true) -> forall m, all_written m -> memory_eqb ieqb m m = Done true.
  Proof.
    intros H m G. destruct (expose_done G) as (l & _ & ->). clear G. induction l as [|x l IH]; cbn; auto. rewrite H. exact IH.
  Qed.

  Lemma written_app : forall m1 m2 : memory I, all_written (m1 ++ m2) <-> all_written m1 /\ all_written m2.
  Proof. intros. unfold all_written. apply Forall_app. Qed.
  Lemma written_firstn : forall k (m : memory I), all_written m -> all_written (firstn k m).
  Proof. intros k m H. rewrite <- (firstn_skipn k m) in H. apply written_app in H. apply H. Qed.
  Lemma written_skipn : forall k (m : memory I), all_written m -> all_written (skipn k m).
  Proof. intros k m H. rewrite <- (firstn_skipn k m) in H. apply written_app in H. apply H. Qed.
  Lemma written_overwrite : forall w (m : memory I), all_written m -> all_written (overwrite w m).
  Proof.
    induction w as [|[x|] w IH]; intros [|y m] H; cbn; auto.
    - inversion H; subst. constructor; [discriminate|]. apply IH. assumption.
    - inversion H; subst. constructor; [assumption|]. apply IH. assumption.
  Qed.

  Lemma fixed_since_written : forall b b' : fixed I, all_written (f_mem b) -> since (fixed_ops I) b b' -> all_written (f_mem b').
  Proof.
    intros b b' H0 H. induction H; auto; cbn [fixed_ops op_request_space op_consume op_fill] in *.
    - unfold fixed_request_space in H1. destruct (assert _) eqn:E; cbn in H1; try discriminate. unfold usize_sub in H1.
      destruct (_ <=? length _); cbn in H1; [|discriminate]. match type of H1 with (if ?c then _ else _) = _ => destruct c end; [|inversion H1; subst; assumption].
      destruct (f_used b1 <=? _); cbn in H1; [|discriminate]. unfold copy_down in H1. destruct (_ <=? length _); cbn in H1; [|discriminate].
      inversion H1; subst. cbn [f_mem]. apply written_app. split; [apply written_firstn|]; apply written_skipn; assumption.
    - unfold fixed_consume in H1. destruct (assert _); cbn in H1; inversion H1; subst. assumption.
    - unfold fixed_fill in H2. destruct (assert _) eqn:E; cbn in H2; try discriminate. destruct (ds_read ds s _) as [[s1 w] [n|e]].
      + destruct (assert (_ + n <=? _)); cbn in H2; inversion H2; subst. cbn [f_mem]. apply written_app.
        split; [apply written_firstn|apply written_overwrite, written_skipn]; assumption.
      + inversion H2; subst. cbn [f_mem]. apply written_app. split; [apply written_firstn|apply written_overwrite, written_skipn]; assumption.
  Qed.
End Memory.
