(** Proofs: programs on machines, and no undefined behaviour on any machine in any build. *)
From Coq Require Import List Bool Arith Lia.
From Verif Require Import Base Parsers Buffer Stream Word SpecBuffer SpecStream SpecWord BufferProofs WordProofs.
Import ListNotations.

Set Implicit Arguments.

(** * Programs over a FixedSizeBuffer *)
Section Programs.
  Variable m : machine.
  Hypothesis P : platform m.
  Context {St I : Type}.
  Variable ds : data_source St I.
  Variable size : nat.
  Hypothesis Hsize : size <= w_alloc m.

  Definition sized (b : fixed I) : Prop := fixed_ok b /\ length (f_mem b) = size.

  Lemma sized_fill : forall b (s : St) b' s' r, sized b -> fixed_fill ds b s = Done (b', s', r) -> sized b'.
  Proof.
    unfold sized, fixed_ok. intros b s b' s' r [[Hu Hp] Hs] H. unfold fixed_fill in H. unbind.
    destruct (ds_read ds s _) as [[s1 w] [n|e]]; unbind; inversion H; subst; clear H; cbn [f_mem f_populated f_used]; rewrite ?mem_length in *; lia.
  Qed.
  Lemma sized_request : forall b n b', sized b -> fixed_request_space b n = Done b' -> sized b'.
  Proof.
    unfold sized, fixed_ok. intros b n b' [[Hu Hp] Hs] H. unfold fixed_request_space in H. unbind. destruct (_ <? n); unbind; inversion H; subst; clear H; auto.
    match goal with Hc : copy_down _ _ _ = Done _ |- _ => pose proof (copy_length _ _ _ Hc) end. cbn [f_mem f_populated f_used]. lia.
  Qed.
  Lemma sized_consume : forall b n b', sized b -> fixed_consume b n = Done b' -> sized b'.
  Proof. unfold sized, fixed_ok. intros b n b' [[Hu Hp] Hs] H. unfold fixed_consume in H. unbind. inversion H; subst; clear H. cbn [f_mem f_populated f_used]. lia. Qed.

  Lemma sized_loop : forall fuel q n b s b' s' r, sized b -> fill_loop ds (fixed_ops I) fuel q n b s = Done (b', s', r) -> sized b'.
  Proof.
    induction fuel as [|fuel IH]; intros q n b s b' s' r Hb H; [discriminate|]. cbn [fill_loop] in H. apply bind_inv in H. destruct H as (l & Hl & H).
    destruct (l <? q); [|inversion H; subst; assumption]. apply bind_inv in H. destruct H as ([[b1 s1] x] & Hx & H).
    pose proof (sized_fill _ Hb Hx) as Hb1. destruct x as [[|k]|e]; [inversion H; subst; assumption|eapply IH; eassumption|inversion H; subst; assumption].
  Qed.

  Definition st_ok (st : src St (fixed I)) : Prop := sized (src_buffer st) /\ src_request st < w_size m.

  Lemma ok_src_fill : forall st st' r, st_ok st -> src_fill ds (fixed_ops I) st = Done (st', r) -> st_ok st'.
  Proof.
    intros st st' r [Hb Hr] H. unfold src_fill in H. apply bind_inv in H. destruct H as ([st1 x] & Hx & H).
    assert (H1 : st_ok st1).
    { unfold fill_requested in Hx. apply bind_inv in Hx. destruct Hx as (l & Hl & Hx). match goal with Hx : (if ?c then _ else _) = _ |- _ => destruct c end; [|inversion Hx; subst; split; assumption].
      apply bind_inv in Hx. destruct Hx as (k & Hk & Hx). apply bind_inv in Hx. destruct Hx as (b & Hb1 & Hx). apply bind_inv in Hx. destruct Hx as ([[b2 s2] y] & Hy & Hx).
      inversion Hx; subst. split; [|assumption]. cbn [src_with src_buffer]. eapply sized_loop; [|eassumption]. eapply sized_request; [exact Hb|exact Hb1]. }
    destruct x; [apply bind_inv in H; destruct H as (l & Hl & H)|]; inversion H; subst; exact H1.
  Qed.

  Lemma sized_deref : forall b dt, sized b -> fixed_deref b = Done dt -> exists l, fixed_len b = Done l /\ length dt = l /\ l <= size.
  Proof.
    unfold sized, fixed_ok. intros b dt [[Hu Hp] Hs] H. unfold fixed_deref, fixed_len in *. unbind. rewrite usize_sub_ok by assumption. eexists. split; [reflexivity|].
    assert (G : forall (x : memory I) (y : list I), expose x = Done y -> length y = length x).
    { induction x as [|[x0|] x IH]; intros y Hy; cbn [expose] in Hy; [inversion Hy; reflexivity| |discriminate]. apply bind_inv in Hy. destruct Hy as (z & Hz & Hy).
      inversion Hy; subst. cbn [length]. f_equal. auto. }
    rewrite (G _ _ H), firstn_length, skipn_length. lia.
  Qed.

  Lemma ok_src_parse : forall T E (p : parser I T E) st st' r, modest (w_size m) size p -> st_ok st -> src_parse ds (fixed_ops I) p st = Done (st', r) -> st_ok st'.
  Proof.
    intros T E p st st' r Hp Hst H. unfold src_parse in H. apply bind_inv in H. destruct H as ([st1 x] & Hx & H).
    assert (H1 : st_ok st1) by (destruct (_ && _); [eapply ok_src_fill; eassumption|inversion Hx; subst; assumption]).
    destruct x; [|inversion H; subst; assumption]. apply bind_inv in H. destruct H as (e & He & H). destruct e; [inversion H; subst; assumption|].
    apply bind_inv in H. destruct H as (dt & Hd & H). destruct H1 as [H1 H2]. destruct (sized_deref H1 Hd) as (l' & Hl' & Hdl & Hls).
    destruct (p (mkInput (src_eoi st1) dt)) as [j v|b0 er|n| |] eqn:Ep; try discriminate; apply bind_inv in H; destruct H as (l & Hl & H).
    1, 2: apply bind_inv in H; destruct H as (k' & Hk & H); apply bind_inv in H; destruct H as (b & Hb & H); inversion H; subst; split; auto; eapply sized_consume; [exact H1|exact Hb].
    assert (l = l') by (cbn [fixed_ops op_len] in Hl; congruence). subst l'. assert (Hdt : length dt <= size) by lia. pose proof (Hp _ _ _ Hdt Ep).
    destruct (src_eoi st1); inversion H; subst; split; auto; cbn [src_request]; lia.
  Qed.

  Lemma fixed_parse_same : forall T E (p : parser I T E) st st' r, modest (w_size m) size p -> st_ok st -> src_parse ds (fixed_ops I) p st = Done (st', r) ->
    st_ok st' /\ w_src_parse m ds (w_fixed_ops I m) p st = Done (st', r).
  Proof.
    intros T E p st st' r Hp Hst H. pose proof (ok_src_parse Hp Hst H) as Hst'. split; [assumption|].
    destruct Hst as [[Ho Hs] Hr]. destruct Hst' as [[Ho' Hs'] Hr']. destruct (parse_fit ds (fixed_fit P I) p st (st' := st') (r := r) Ho H) as [_ G]. apply G; [|exact Hr'].
    unfold st_small. rewrite Hs'. assumption.
  Qed.

  Lemma fixed_insist_same : forall T E (p : parser I T E) fuel st st' r, modest (w_size m) size p -> st_ok st -> insist ds (fixed_ops I) fuel p st = Done (st', r) ->
    st_ok st' /\ w_insist m ds (w_fixed_ops I m) fuel p st = Done (st', r).
  Proof.
    intros T E p. induction fuel as [|fuel IH]; intros st st' r Hp Hst H; [discriminate|]. cbn [insist w_insist] in *. apply bind_inv in H. destruct H as ([st1 x] & Hx & H).
    destruct (fixed_parse_same Hp Hst Hx) as [H1 Hw]. rewrite Hw. cbn [run_bind]. destruct x as [v|[b e|n|e| |]]; auto; inversion H; subst; auto.
  Qed.

  Lemma fixed_script_same : forall T E (c : script I T E) fuel st rs, modest_script (w_size m) size c -> st_ok st -> on_source ds (fixed_ops I) fuel c st = Done rs ->
    w_on_source m ds (w_fixed_ops I m) fuel c st = Done rs.
  Proof.
    intros T E c fuel st rs Hc. revert st rs. induction Hc as [|p k Hp Hk IH]; intros st rs Hst H; [exact H|]. cbn [on_source w_on_source] in *.
    apply bind_inv in H. destruct H as ([st1 x] & Hx & H). destruct (fixed_insist_same _ Hp Hst Hx) as [H1 Hw]. rewrite Hw. cbn [run_bind].
    apply bind_inv in H. destruct H as (rs1 & Hrs & H). rewrite (IH _ _ _ H1 Hrs). exact H.
  Qed.
End Programs.

(** * No undefined behaviour *)

(** Panics, or finishes with this. *)
Definition fine {A} (Q : A -> Prop) (r : run A) : Prop :=
  match r with
  | Done a => Q a
  | Panicked => True
  | Undefined => False
  | Stuck => False
  end.

Lemma fine_defined : forall A (Q : A -> Prop) r, fine Q r -> defined r.
Proof. intros A Q [a| | |] H; cbn [fine] in H; try contradiction; split; discriminate. Qed.
Lemma fine_bind : forall A B (Q : A -> Prop) (R : B -> Prop) r f, fine Q r -> (forall a, r = Done a -> Q a -> fine R (f a)) -> fine R (run_bind r f).
Proof. intros A B Q R [a| | |] f H Hf; cbn [run_bind fine] in *; auto. Qed.
Lemma fine_imp : forall A (Q R : A -> Prop) r, fine Q r -> (forall a, Q a -> R a) -> fine R r.
Proof. intros A Q R [a| | |] H Hq; cbn [fine] in *; auto. Qed.
Lemma fine_assert : forall c, fine (fun _ => c = true) (assert c).
Proof. intros [|]; cbn; auto. Qed.

Section Safe.
  Variable m : machine.
  Hypothesis P : platform m.

  Lemma add_fine : forall a b, fine (fun c => c < w_size m /\ (a + b < w_size m -> c = a + b)) (w_add m a b).
  Proof.
    unfold platform in P. intros a b. unfold w_add. destruct (Nat.ltb_spec (a + b) (w_size m)); [cbn; auto|]. destruct (w_debug m); cbn; auto.
    split; [apply Nat.mod_upper_bound; lia|lia].
  Qed.
  Lemma sub_fine : forall a b, fine (fun c => if b <=? a then c = a - b else c = a + w_size m - b) (w_sub m a b).
  Proof. intros a b. unfold w_sub. destruct (b <=? a); [reflexivity|]. destruct (w_debug m); cbn; auto. Qed.
  Lemma sum_fine : forall a b c, fine (fun _ => True) (w_debug_assert_sum m a b c).
  Proof.
    intros a b c. unfold w_debug_assert_sum. destruct (w_debug m); [|exact Logic.I]. eapply fine_bind; [apply add_fine|]. intros s _ _. unfold assert. destruct (s <=? c); exact Logic.I.
  Qed.

  Definition written {I} (mem : memory I) : Prop := Forall (fun x => x <> None) mem.

  Lemma written_expose : forall I (x : memory I), written x -> exists l, expose x = Done l.
  Proof.
    intros I x H. induction H as [|[a|] x Hx H IH]; [exists []; reflexivity| |congruence]. destruct IH as [l Hl]. exists (a :: l). cbn [expose]. rewrite Hl. reflexivity.
  Qed.
  Lemma written_firstn : forall I (x : memory I) k, written x -> written (firstn k x).
  Proof. intros I x k H. unfold written in *. rewrite <- (firstn_skipn k x) in H. apply Forall_app in H. tauto. Qed.
  Lemma written_skipn : forall I (x : memory I) k, written x -> written (skipn k x).
  Proof. intros I x k H. unfold written in *. rewrite <- (firstn_skipn k x) in H. apply Forall_app in H. tauto. Qed.

  Lemma written_fill : forall I (mem w : memory I) pop k, pop <= length mem -> written (firstn pop mem) -> k <= length mem - pop -> (exists c, length c = k /\ writes w c) ->
    written (firstn (pop + k) (firstn pop mem ++ overwrite w (skipn pop mem))).
  Proof.
    intros I mem w pop k Hp Hw Hk (c & Hc & Hcw). rewrite firstn_app, firstn_length. replace (pop + k - Nat.min pop (length mem)) with k by lia.
    rewrite firstn_all2 by (rewrite firstn_length; lia). apply Forall_app. split; [assumption|]. subst k. rewrite overwrite_writes by (auto; rewrite skipn_length; lia).
    clear. induction c; constructor; auto; discriminate.
  Qed.

  Lemma written_err : forall I (mem w : memory I) pop, pop <= length mem -> written (firstn pop mem) -> written (firstn pop (firstn pop mem ++ overwrite w (skipn pop mem))).
  Proof. intros I mem w pop Hp Hw. pose proof (@written_fill I mem w pop 0 Hp Hw ltac:(lia)) as H. rewrite Nat.add_0_r in H. apply H. exists []. split; reflexivity. Qed.

  Lemma written_move : forall I (mem mem' : memory I) pop used, used <= pop -> pop <= length mem -> written (firstn pop mem) -> copy_down mem used (pop - used) = Done mem' ->
    written (firstn (pop - used) mem').
  Proof.
    intros I mem mem' pop used Hu Hp Hw H. unfold copy_down in H. destruct (_ <=? _); [|discriminate]. inversion H; subst. rewrite firstn_app, firstn_length, skipn_length.
    replace (pop - used - Nat.min (pop - used) (length mem - used)) with 0 by lia. rewrite firstn_O, app_nil_r, firstn_firstn, Nat.min_id.
    rewrite <- skipn_firstn_comm. apply written_skipn. assumption.
  Qed.

  Lemma copy_in : forall I (mem : memory I) pop used, used <= pop -> pop <= length mem -> exists mem', copy_down mem used (pop - used) = Done mem'.
  Proof. intros. unfold copy_down. replace (used + (pop - used) <=? length mem) with true by (symmetry; apply Nat.leb_le; lia). eauto. Qed.

  Lemma written_deref : forall I (mem : memory I) pop used, used <= pop -> written (firstn pop mem) -> exists l, expose (firstn (pop - used) (skipn used mem)) = Done l.
  Proof.
    intros I mem pop used Hu Hw. apply written_expose. rewrite <- skipn_firstn_comm. apply written_skipn. assumption.
  Qed.

  (** What a buffer must guarantee for a Source over it to be safe. *)
  Record ops_safe {I B} (o : buffer_ops I B) (inv : B -> Prop) (room : B -> nat) : Prop := mkOpsSafe {
    os_deref : forall b, inv b -> fine (fun _ => True) (op_deref o b);
    os_len : forall b, inv b -> fine (fun _ => True) (op_len o b);
    os_fill : forall St (ds : data_source St I) b s, obeys ds -> inv b ->
      fine (fun x => let '(b', _, r) := x in inv b' /\ match r with IoOk n => room b' + n = room b | IoErr _ => True end) (op_fill o ds b s);
    os_request : forall b l q, inv b -> op_len o b = Done l -> l < q -> q < w_size m -> fine inv (op_request_space o b (q - l));
    os_consume : forall b n, inv b -> fine inv (op_consume o b n);
    os_room : forall b, inv b -> room b <= op_capacity o b;
    os_capacity : forall b, inv b -> op_capacity o b < w_size m }.

  Definition fixed_safe_inv {I} (b : fixed I) : Prop :=
    length (f_mem b) <= w_alloc m /\ f_populated b <= length (f_mem b) /\ written (firstn (f_populated b) (f_mem b)).

  Lemma fixed_safe : forall I, ops_safe (w_fixed_ops I m) fixed_safe_inv (fun b => length (f_mem b) - f_populated b).
  Proof.
    pose proof P as P'. unfold platform in P'.
    intros I. split; cbn [w_fixed_ops op_deref op_fill op_request_space op_consume op_len op_capacity]; unfold fixed_safe_inv.
    - intros b (Hl & Hp & Hw). unfold fixed_deref. eapply fine_bind; [apply fine_assert|]. intros u _ Hc; cbv beta in Hc. rewrite andb_true_iff, !Nat.leb_le in Hc.
      destruct (@written_deref I (f_mem b) (f_populated b) (f_used b)) as [l E]; try tauto. rewrite E. exact Logic.I.
    - intros b _. eapply fine_imp; [apply sub_fine|]. auto.
    - intros St ds b s Ho (Hl & Hp & Hw). unfold w_fixed_fill. eapply fine_bind; [apply fine_assert|]. intros u _ _.
      destruct (ds_read ds s _) as [[s1 w] [n|e]] eqn:E; cbn [fine f_mem f_populated]; rewrite ?mem_length.
      + destruct (Ho _ _ _ _ _ E) as [Hn Hc]. eapply fine_bind; [apply sum_fine|]. intros _ _ _. eapply fine_bind; [apply add_fine|]. intros pop _ [_ Hpop].
        rewrite Hpop by lia. cbn [fine f_mem f_populated]. rewrite mem_length. repeat split; try lia. apply written_fill; auto.
      + repeat split; auto. apply written_err; assumption.
    - intros b l q (Hl & Hp & Hw) _ _ _. unfold w_fixed_request_space. eapply fine_bind; [apply fine_assert|]. intros u _ Hc; cbv beta in Hc. apply Nat.leb_le in Hc.
      rewrite sub_fits by assumption. cbn [run_bind]. destruct (_ <? _); [|cbn; auto]. rewrite sub_fits by assumption. cbn [run_bind].
      destruct (copy_in (f_mem b) Hc Hp) as [mem E]. rewrite E. cbn [run_bind fine f_mem f_populated]. rewrite (copy_length _ _ _ E). repeat split; try lia.
      eapply written_move; eassumption.
    - intros b n (Hl & Hp & Hw). unfold w_fixed_consume. eapply fine_bind; [apply sum_fine|]. intros _ _ _. eapply fine_bind; [apply add_fine|]. intros used _ _. cbn; auto.
    - intros b (Hl & Hp & Hw). unfold fixed_capacity. lia.
    - intros b (Hl & Hp & Hw). unfold fixed_capacity. lia.
  Qed.

  Definition growing_safe_inv {I} (b : growing I) : Prop :=
    length (g_mem b) = g_cap b /\ g_cap b <= w_alloc m /\ g_populated b <= length (g_mem b) /\ g_used b < w_size m /\ written (firstn (g_populated b) (g_mem b)).

  Lemma growing_safe : forall I, ops_safe (w_growing_ops I m) growing_safe_inv (fun b => length (g_mem b) - g_populated b).
  Proof.
    pose proof P as P'. unfold platform in P'.
    intros I. split; cbn [w_growing_ops op_deref op_fill op_request_space op_consume op_len op_capacity]; unfold growing_safe_inv.
    - intros b (Hl & Hc & Hp & Hu & Hw). unfold growing_deref. eapply fine_bind; [apply fine_assert|]. intros u _ Hs; cbv beta in Hs. rewrite andb_true_iff, !Nat.leb_le in Hs.
      destruct (@written_deref I (g_mem b) (g_populated b) (g_used b)) as [l E]; try tauto. rewrite E. exact Logic.I.
    - intros b _. eapply fine_imp; [apply sub_fine|]. auto.
    - intros St ds b s Ho (Hl & Hc & Hp & Hu & Hw). unfold w_growing_fill. eapply fine_bind; [apply fine_assert|]. intros u _ _.
      destruct (ds_read ds s _) as [[s1 w] [n|e]] eqn:E; cbn [fine g_mem g_cap g_used g_populated]; rewrite ?mem_length.
      + destruct (Ho _ _ _ _ _ E) as [Hn Hcw]. eapply fine_bind; [apply sum_fine|]. intros _ _ _. eapply fine_bind; [apply add_fine|]. intros pop _ [_ Hpop].
        rewrite Hpop by lia. cbn [fine g_mem g_cap g_used g_populated]. rewrite mem_length. repeat split; try lia. apply written_fill; auto.
      + repeat split; auto. apply written_err; assumption.
    - intros b l q (Hl & Hc & Hp & Hu & Hw) Hlen Hlq Hq. unfold w_growing_request_space. destruct (_ && _); [cbn; auto|]. rewrite Hlen. cbn [run_bind].
      rewrite add_fits by lia. cbn [run_bind]. replace (q - l + l) with q by lia.
      pose proof (sub_fine (g_populated b) (g_used b)) as Hf. unfold w_growing_len in Hlen. rewrite Hlen in Hf. cbn [fine] in Hf.
      assert (Hbig : g_populated b < g_used b -> length (g_mem b) < q \/ q - l <= length (g_mem b) - g_populated b).
      { intros Hlt. destruct (Nat.leb_spec (g_used b) (g_populated b)); lia. }
      eapply fine_bind with (Q := fun b1 => length (g_mem b1) = g_cap b1 /\ g_cap b1 <= w_alloc m /\ g_populated b1 = g_populated b /\ g_used b1 = g_used b /\
        g_populated b1 <= length (g_mem b1) /\ written (firstn (g_populated b1) (g_mem b1)) /\ (g_populated b < g_used b -> q - l <= length (g_mem b1) - g_populated b1)).
      + destruct (Nat.ltb_spec (g_cap b) q) as [Hlt|Hge]; [|cbn [fine]; repeat split; auto; intros H; destruct (Hbig H); lia].
        unfold w_growing_reserve, growing_reserve. destruct (Nat.leb_spec (q - l) (g_cap b - length (g_mem b))) as [Hle|Hgt].
        * lia.
        * cbn [g_cap]. match goal with |- context [assert (?x <=? w_alloc m)] => destruct (Nat.leb_spec x (w_alloc m)) as [Ha|Ha] end; [|exact Logic.I].
          cbn [assert run_bind fine growing_set_len g_mem g_cap g_populated g_used]. rewrite app_length, repeat_length. repeat split; try lia.
          rewrite firstn_app. replace (g_populated b - length (g_mem b)) with 0 by lia. rewrite firstn_O, app_nil_r. assumption.
      + intros b1 _ (A1 & A2 & A3 & A4 & A5 & A6 & A7). rewrite sub_fits by lia. cbn [run_bind]. destruct (Nat.ltb_spec (length (g_mem b1) - g_populated b1) (q - l)) as [Hlt|Hge].
        2:{ cbn [fine]. rewrite A4. repeat split; auto. }
        assert (Hin : g_used b1 <= g_populated b1) by (destruct (Nat.ltb_spec (g_populated b) (g_used b)) as [Hx|Hx]; [specialize (A7 Hx); lia|lia]).
        rewrite sub_fits by assumption. cbn [run_bind]. destruct (copy_in (g_mem b1) Hin A5) as [mem E]. rewrite E. cbn [run_bind fine g_mem g_cap g_used g_populated].
        rewrite (copy_length _ _ _ E). repeat split; try lia. eapply written_move; eassumption.
    - intros b n (Hl & Hc & Hp & Hu & Hw). unfold w_growing_consume. eapply fine_bind; [apply sum_fine|]. intros _ _ _. eapply fine_bind; [apply add_fine|]. intros used _ [Hlt _].
      cbn [fine g_mem g_cap g_used g_populated]. auto.
    - intros b (Hl & Hc & Hp & Hu & Hw). unfold growing_capacity. lia.
    - intros b (Hl & Hc & Hp & Hu & Hw). unfold growing_capacity. lia.
  Qed.

  Section SourceSafe.
    Context {St I B : Type}.
    Variable ds : data_source St I.
    Hypothesis O : obeys ds.
    Variables (o : buffer_ops I B) (inv : B -> Prop) (room : B -> nat).
    Hypothesis F : ops_safe o inv room.

    Definition safe_st (st : src St B) : Prop := inv (src_buffer st) /\ src_request st < w_size m.

    Lemma loop_safe : forall fuel q n b s, inv b -> room b < fuel -> fine (fun x => inv (fst (fst x))) (w_fill_loop m ds o fuel q n b s).
    Proof.
      induction fuel as [|fuel IH]; intros q n b s Hb Hf; [lia|]. cbn [w_fill_loop]. eapply fine_bind; [apply (os_len F), Hb|]. intros l _ _.
      destruct (l <? q); [|exact Hb]. eapply fine_bind; [apply (os_fill F); assumption|]. intros [[b1 s1] x] _ [Hb1 Hx]. destruct x as [[|k]|e]; try exact Hb1.
      eapply fine_bind; [apply add_fine|]. intros n' _ _. apply IH; [assumption|lia].
    Qed.

    Lemma requested_safe : forall q st, q < w_size m -> safe_st st -> fine (fun x => safe_st (fst x)) (w_fill_requested m ds o q st).
    Proof.
      intros q st Hq [Hb Hr]. unfold w_fill_requested. eapply fine_bind; [apply (os_len F), Hb|]. intros l El _. destruct (Nat.ltb_spec l q) as [Hlt|Hge]; [|split; assumption].
      rewrite sub_fits by lia. cbn [run_bind]. eapply fine_bind; [apply (os_request F); eassumption|]. intros b _ Hb1.
      eapply fine_bind; [apply loop_safe; [exact Hb1|pose proof (os_room F _ Hb1); lia]|]. intros [[b2 s2] x] _ Hb2. split; assumption.
    Qed.

    Lemma fill_safe : forall st, safe_st st -> fine (fun x => safe_st (fst x)) (w_src_fill m ds o st).
    Proof.
      intros st Hst. unfold w_src_fill. eapply fine_bind; [apply requested_safe; [destruct Hst; unfold platform in P; lia|assumption]|]. intros [st1 [n|e]] _ H1; [|exact H1].
      cbn [fst] in H1. eapply fine_bind; [apply (os_len F), H1|]. intros l _ _. exact H1.
    Qed.

    Lemma read_safe : forall n st, n < w_size m -> safe_st st -> fine (fun x => safe_st (fst x)) (w_src_read m ds o n st).
    Proof.
      intros n st Hn Hst. unfold w_src_read, src_len. eapply fine_bind; [apply (os_len F), Hst|]. intros l _ _.
      eapply fine_bind with (Q := fun x => safe_st (fst x)); [destruct (l <? n); [apply requested_safe; assumption|exact Hst]|]. intros [st1 [k|e]] _ H1; [|exact H1]. cbn [fst] in H1.
      eapply fine_bind; [apply (os_deref F), H1|]. intros dt _ _. eapply fine_bind; [apply (os_consume F), H1|]. intros b _ Hb. split; [exact Hb|apply H1].
    Qed.

    Lemma fill_buf_safe : forall st, safe_st st -> fine (fun x => safe_st (fst x)) (w_src_fill_buf m ds o st).
    Proof.
      intros st Hst. unfold w_src_fill_buf, src_capacity, src_view. eapply fine_bind; [apply requested_safe; [apply (os_capacity F), Hst|assumption]|]. intros [st1 [k|e]] _ H1; [|exact H1]. cbn [fst] in H1.
      eapply fine_bind; [apply (os_deref F), H1|]. intros dt _ _. exact H1.
    Qed.

    Lemma consume_safe : forall n st, safe_st st -> fine safe_st (src_consume o n st).
    Proof. intros n st Hst. unfold src_consume. eapply fine_bind; [apply (os_consume F), Hst|]. intros b _ Hb. split; [exact Hb|apply Hst]. Qed.

    Lemma is_empty_safe : forall st : src St B, safe_st st -> fine (fun _ => True) (src_is_empty o st).
    Proof.
      intros st Hst. unfold src_is_empty, src_len. destruct (src_eoi st); [|exact Logic.I]. eapply fine_bind; [apply (os_len F), Hst|]. intros; exact Logic.I.
    Qed.

    (** Like [fine], when the parser may run out of its own loop budget. *)
    Definition fine_or_stuck {A} (Q : A -> Prop) (c : Prop) (r : run A) : Prop :=
      match r with Done a => Q a | Panicked => True | Undefined => False | Stuck => c end.
    Lemma fos_bind : forall A B (Q : A -> Prop) (R : B -> Prop) c r f, fine Q r -> (forall a, r = Done a -> Q a -> fine_or_stuck R c (f a)) -> fine_or_stuck R c (run_bind r f).
    Proof. intros X Y Q R c [a| | |] f H Hf; cbn [run_bind fine fine_or_stuck] in *; auto; contradiction. Qed.

    Lemma parse_safe : forall T E (p : parser I T E) st, safe_st st ->
      fine_or_stuck (fun x => safe_st (fst x)) (exists i, p i = NoFuel) (w_src_parse m ds o p st).
    Proof.
      intros T E p st Hst. unfold w_src_parse. eapply fos_bind with (Q := fun x => safe_st (fst x)); [destruct (_ && _); [apply fill_safe; assumption|exact Hst]|].
      intros [st1 [k|e]] _ H1; [|exact H1]. cbn [fst] in H1. eapply fos_bind; [apply is_empty_safe, H1|]. intros e _ _. destruct e; [exact H1|].
      eapply fos_bind; [apply (os_deref F), H1|]. intros dt _ _. destruct (p (mkInput (src_eoi st1) dt)) as [j v|b0 er|n| |] eqn:Ep; try exact Logic.I; [| | |exists (mkInput (src_eoi st1) dt); exact Ep];
        (eapply fos_bind; [apply (os_len F), H1|]; intros l _ _).
      - eapply fos_bind; [apply sub_fine|]. intros n _ _. eapply fos_bind; [apply (os_consume F), H1|]. intros b _ Hb. split; [exact Hb|apply H1].
      - eapply fos_bind; [apply sub_fine|]. intros n _ _. eapply fos_bind; [apply (os_consume F), H1|]. intros b _ Hb. split; [exact Hb|apply H1].
      - eapply fos_bind; [apply add_fine|]. intros q _ [Hq _]. destruct (src_eoi st1); (split; [apply H1|exact Hq]).
    Qed.

    Lemma history_safe : forall s0 b0 st, inv b0 -> w_history m ds o s0 b0 st -> safe_st st.
    Proof.
      intros s0 b0 st Hb0 H. induction H as [|st T E p st' r Hh IH H|st st' r Hh IH H|st n st' r Hh IH Hn H|st st' r Hh IH H|st n st' Hh IH Hn H|st Hh IH|st v Hh IH].
      - split; [exact Hb0|]. cbn. unfold platform in P. lia.
      - pose proof (parse_safe p IH) as G. rewrite H in G. exact G.
      - pose proof (fill_safe IH) as G. rewrite H in G. exact G.
      - pose proof (read_safe Hn IH) as G. rewrite H in G. exact G.
      - pose proof (fill_buf_safe IH) as G. rewrite H in G. exact G.
      - pose proof (consume_safe n IH) as G. rewrite H in G. exact G.
      - exact IH.
      - exact IH.
    Qed.

    Lemma history_defined : forall s0 b0 st, inv b0 -> w_history m ds o s0 b0 st -> all_defined m ds o st.
    Proof.
      intros s0 b0 st Hb0 H. pose proof (history_safe Hb0 H) as Hs. split.
      - intros T E p G. pose proof (parse_safe p Hs) as K. rewrite G in K. exact K.
      - intros T E p Hp G. pose proof (parse_safe p Hs) as K. rewrite G in K. destruct K as [i Hi]. exact (Hp i Hi).
      - eapply fine_defined, fill_safe, Hs.
      - intros n Hn. eapply fine_defined, read_safe; assumption.
      - eapply fine_defined, fill_buf_safe, Hs.
      - intros n _. eapply fine_defined, consume_safe, Hs.
      - eapply fine_defined, (os_len F), Hs.
      - eapply fine_defined, is_empty_safe, Hs.
      - eapply fine_defined, (os_deref F), Hs.
    Qed.
  End SourceSafe.

  (** * Buffers used directly *)

  Lemma fixed_request_safe : forall I (b : fixed I) n, fixed_safe_inv b -> fine fixed_safe_inv (w_fixed_request_space m b n).
  Proof.
    unfold fixed_safe_inv. intros I b n (Hl & Hp & Hw). unfold w_fixed_request_space. eapply fine_bind; [apply fine_assert|]. intros u _ Hc; cbv beta in Hc. apply Nat.leb_le in Hc.
    rewrite sub_fits by assumption. cbn [run_bind]. destruct (_ <? _); [|cbn; auto]. rewrite sub_fits by assumption. cbn [run_bind].
    destruct (copy_in (f_mem b) Hc Hp) as [mem E]. rewrite E. cbn [run_bind fine f_mem f_populated]. rewrite (copy_length _ _ _ E). repeat split; try lia.
    eapply written_move; eassumption.
  Qed.

  Lemma fixed_reached : forall I (b0 b : fixed I), fixed_safe_inv b0 -> w_reached m (w_fixed_ops I m) any_amount b0 b -> fixed_safe_inv b.
  Proof.
    intros I b0 b H0 H. induction H as [|b n b' Hh IH Hn H|b n b' Hh IH Hn Hm H|St ds s b b' s' r Hh IH Ho H]; auto.
    - pose proof (fixed_request_safe n IH) as G. cbn [w_fixed_ops op_request_space] in H. rewrite H in G. exact G.
    - pose proof (os_consume (fixed_safe I) _ n IH) as G. rewrite H in G. exact G.
    - pose proof (os_fill (fixed_safe I) b s Ho IH) as G. rewrite H in G. apply G.
  Qed.

  Lemma fixed_buffer_defined : forall I (b0 b : fixed I), fixed_safe_inv b0 -> w_reached m (w_fixed_ops I m) any_amount b0 b -> buffer_defined m (w_fixed_ops I m) b.
  Proof.
    intros I b0 b H0 H. pose proof (fixed_reached H0 H) as Hb. split.
    - eapply fine_defined, (os_deref (fixed_safe I)), Hb.
    - eapply fine_defined, (os_len (fixed_safe I)), Hb.
    - intros n _. eapply fine_defined. apply (fixed_request_safe n Hb).
    - intros n. eapply fine_defined, (os_consume (fixed_safe I)), Hb.
    - intros St ds s Ho. eapply fine_defined, (os_fill (fixed_safe I)); assumption.
  Qed.

  Definition growing_used_inv {I} (b : growing I) : Prop := growing_safe_inv b /\ g_used b <= g_populated b.

  Lemma growing_request_safe : forall I (b : growing I) n, growing_used_inv b -> fine growing_used_inv (w_growing_request_space m b n).
  Proof.
    pose proof P as P'. unfold platform in P'.
    unfold growing_used_inv, growing_safe_inv. intros I b n [(Hl & Hc & Hp & Hu & Hw) Hle]. unfold w_growing_request_space. destruct (_ && _); [cbn; auto 10|].
    unfold w_growing_len. rewrite sub_fits by assumption. cbn [run_bind]. eapply fine_bind; [apply add_fine|]. intros total _ _.
    eapply fine_bind with (Q := fun b1 => length (g_mem b1) = g_cap b1 /\ g_cap b1 <= w_alloc m /\ g_populated b1 = g_populated b /\ g_used b1 = g_used b /\
      g_populated b1 <= length (g_mem b1) /\ written (firstn (g_populated b1) (g_mem b1))).
    - destruct (g_cap b <? total); [|cbn [fine]; auto 10].
      unfold w_growing_reserve, growing_reserve. destruct (Nat.leb_spec n (g_cap b - length (g_mem b))) as [Hn|Hn].
      + cbn [run_bind fine growing_set_len g_mem g_cap g_populated g_used]. rewrite app_length, repeat_length. repeat split; try lia.
        rewrite firstn_app. replace (g_populated b - length (g_mem b)) with 0 by lia. rewrite firstn_O, app_nil_r. assumption.
      + cbn [g_cap]. match goal with |- context [assert (?x <=? w_alloc m)] => destruct (Nat.leb_spec x (w_alloc m)) as [Ha|Ha] end; [|exact Logic.I].
        cbn [assert run_bind fine growing_set_len g_mem g_cap g_populated g_used]. rewrite app_length, repeat_length. repeat split; try lia.
        rewrite firstn_app. replace (g_populated b - length (g_mem b)) with 0 by lia. rewrite firstn_O, app_nil_r. assumption.
    - intros b1 _ (A1 & A2 & A3 & A4 & A5 & A6). rewrite sub_fits by lia. cbn [run_bind]. destruct (_ <? n); [|cbn [fine]; rewrite A3, A4 in *; repeat split; auto].
      assert (Hin : g_used b1 <= g_populated b1) by lia.
      rewrite sub_fits by assumption. cbn [run_bind]. destruct (copy_in (g_mem b1) Hin A5) as [mem E]. rewrite E. cbn [run_bind fine g_mem g_cap g_used g_populated].
      rewrite (copy_length _ _ _ E). repeat split; try lia. eapply written_move; eassumption.
  Qed.

  Lemma growing_held : forall I (b : growing I) n, growing_used_inv b -> held (w_growing_ops I m) b n -> n <= g_populated b - g_used b.
  Proof.
    intros I b n [(Hl & Hc & Hp & Hu & Hw) Hle] (l & Hd & Hn). cbn [w_growing_ops op_deref] in Hd. unfold growing_deref in Hd. apply bind_inv in Hd. destruct Hd as (u & _ & Hd).
    assert (G : forall (x : memory I) (y : list I), expose x = Done y -> length y = length x).
    { induction x as [|[x0|] x IH]; intros y Hy; cbn [expose] in Hy; [inversion Hy; reflexivity| |discriminate]. apply bind_inv in Hy. destruct Hy as (z & Hz & Hy).
      inversion Hy; subst. cbn [length]. f_equal. auto. }
    rewrite (G _ _ Hd), firstn_length in Hn. lia.
  Qed.

  Lemma growing_reached : forall I (b0 b : growing I), growing_used_inv b0 -> w_reached m (w_growing_ops I m) (held (w_growing_ops I m)) b0 b -> growing_used_inv b.
  Proof.
    pose proof P as P'. unfold platform in P'.
    intros I b0 b H0 H. induction H as [|b n b' Hh IH Hn H|b n b' Hh IH Hn Hm H|St ds s b b' s' r Hh IH Ho H]; auto.
    - pose proof (growing_request_safe n IH) as G. cbn [w_growing_ops op_request_space] in H. rewrite H in G. exact G.
    - pose proof (os_consume (growing_safe I) _ n (proj1 IH)) as G. rewrite H in G. split; [exact G|]. pose proof (growing_held IH Hm) as Hle.
      destruct IH as [(Hl & Hc & Hp & Hu & Hw) Hup]. cbn [w_growing_ops op_consume] in H. unfold w_growing_consume in H. apply bind_inv in H. destruct H as (u & _ & H).
      rewrite add_fits in H by lia. cbn [run_bind] in H. inversion H; subst. cbn [g_used g_populated]. lia.
    - pose proof (os_fill (growing_safe I) b s Ho (proj1 IH)) as G. rewrite H in G. split; [apply G|].
      destruct IH as [(Hl & Hc & Hp & Hu & Hw) Hup]. cbn [w_growing_ops op_fill] in H. unfold w_growing_fill in H. apply bind_inv in H. destruct H as (u & _ & H).
      destruct (ds_read ds s _) as [[s1 w] [n|e]] eqn:E; [|inversion H; subst; exact Hup].
      destruct (Ho _ _ _ _ _ E) as [Hn _]. apply bind_inv in H. destruct H as (u1 & _ & H). rewrite add_fits in H by lia. cbn [run_bind] in H. inversion H; subst. cbn [g_used g_populated]. lia.
  Qed.

  Lemma growing_buffer_defined : forall I (b0 b : growing I), growing_used_inv b0 -> w_reached m (w_growing_ops I m) (held (w_growing_ops I m)) b0 b ->
    buffer_defined m (w_growing_ops I m) b.
  Proof.
    intros I b0 b H0 H. pose proof (growing_reached H0 H) as Hb. destruct Hb as [Hb Hu]. split.
    - eapply fine_defined, (os_deref (growing_safe I)), Hb.
    - eapply fine_defined, (os_len (growing_safe I)), Hb.
    - intros n _. eapply fine_defined. apply (@growing_request_safe I b n). split; assumption.
    - intros n. eapply fine_defined, (os_consume (growing_safe I)), Hb.
    - intros St ds s Ho. eapply fine_defined, (os_fill (growing_safe I)); assumption.
  Qed.
End Safe.

(** * Programs in two builds *)
Section TwoBuilds.
  Variables W A : nat.
  Let d := debug_build W A.
  Let r := release_build W A.
  Context {St I B : Type}.
  Variable ds : data_source St I.

  Lemma insist_builds : forall (o o' : buffer_ops I B), ops_le2 o o' -> forall T E (p : parser I T E) fuel st,
    panics_or (w_insist d ds o fuel p st) (w_insist r ds o' fuel p st).
  Proof.
    intros o o' L T E p. induction fuel as [|fuel IH]; intros st; [right; reflexivity|]. cbn [w_insist]. apply le2_bind; [apply parse_builds, L|].
    intros [st1 x] _. destruct x as [v|[b e|n|e| |]]; try (right; reflexivity); apply IH.
  Qed.

  Lemma script_builds : forall (o o' : buffer_ops I B), ops_le2 o o' -> forall T E (c : script I T E) fuel st,
    panics_or (w_on_source d ds o fuel c st) (w_on_source r ds o' fuel c st).
  Proof.
    intros o o' L T E c fuel. induction c as [|p k IH]; intros st; [right; reflexivity|]. cbn [w_on_source]. apply le2_bind; [apply insist_builds, L|].
    intros [st1 x] _. apply le2_bind; [apply IH|]. intros; right; reflexivity.
  Qed.

  Lemma insist_nat : forall (o o' : buffer_ops I B), ops_le2 o o' -> forall T E (p : parser I T E) fuel st,
    panics_or_stuck (w_insist d ds o fuel p st) (insist ds o' fuel p st).
  Proof.
    intros o o' L T E p. induction fuel as [|fuel IH]; intros st; [right; right; reflexivity|]. cbn [w_insist insist]. apply le3_bind; [apply parse_nat, L|].
    intros [st1 x] _. destruct x as [v|[b e|n|e| |]]; try (right; left; reflexivity); apply IH.
  Qed.

  Lemma script_nat : forall (o o' : buffer_ops I B), ops_le2 o o' -> forall T E (c : script I T E) fuel st,
    panics_or_stuck (w_on_source d ds o fuel c st) (on_source ds o' fuel c st).
  Proof.
    intros o o' L T E c fuel. induction c as [|p k IH]; intros st; [right; left; reflexivity|]. cbn [w_on_source on_source]. apply le3_bind; [apply insist_nat, L|].
    intros [st1 x] _. apply le3_bind; [apply IH|]. intros; right; left; reflexivity.
  Qed.
End TwoBuilds.
