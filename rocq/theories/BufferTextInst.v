(** The buffers of src/buffer/buffer.rs inside a Source, and any other buffer, meet the interface of BufferTextSource.v. *)
From Coq Require Import List Bool Arith String Lia.
From Verif Require Import Base Combinators Buffer BufferProofs Stream Rust RustText BufferText TextModel TextProofs TextLoop TextWp BufferTextModel BufferTextProofs
  BufferTextSource.
Import ListNotations.

Set Implicit Arguments.
Local Open Scope string_scope.
Local Open Scope list_scope.
Local Open Scope nat_scope.

Section Instances.
  Context {St B0 T E I R : Type}.
  Notation thing := (stream_thing St B0 T E).
  Notation value := (value I thing).
  Variable verbose : bool.
  Variable eqb : I -> I -> bool.
  Variable ds0 ds : data_source St I.
  Variable next : St -> option I * St.
  Variable ops0 : buffer_ops I B0.
  Variable p : parser I T E.
  Variable conv : value -> value.
  Variable starts : thing.
  Variable acts : thing -> caction value value thing.

  Ltac run_to t :=
    match goal with
    | |- wp _ _ (fits (Done ?a) ?wv ?ws) => apply wp_deep with (o := Val (wv a)) (s' := ws a); [|split; reflexivity]
    | |- wp _ _ (fits Panicked _ _) => eapply wp_deep with (o := Panicking); [|reflexivity]
    | |- wp _ _ (fits Undefined _ _) => eapply wp_deep with (o := Wrong); [|reflexivity]
    | |- wp _ _ (fits Stuck _ _) => eapply wp_deep with (o := Tired); [|exact Logic.I]
    end; intros ? ?; destruct verbose; evaluate_buffer; t; reflexivity.
  Ltac shapes rest Hr := destruct rest as [|r1 [|r2 [|r3 [|r4 rest]]]]; [..|cbn in Hr; lia].


  (** A data source in a Source: its methods, as the buffers call them.  The buffer is a record whose first field is the vector. *)
  Definition at_mem (wsrc : St -> value) (ty : string) (fs : list (string * value)) (cap : nat) (more : nat -> nat) (count : nat) (q f : nat)
      (rest : list value) (s : St) (m : memory I) : list value :=
    VRec "Source" [("source", wsrc s); ("buffer", VRec ty (("buffer", VMem m cap more count) :: fs)); ("request", VNat q); ("state", VFlags f)] :: rest.
  Record source_says (ds : data_source St I) (wsrc : St -> value) : Prop := mkSourceSays {
    ss_shape : forall s, (exists o, wsrc s = VObj o) \/ (exists ty c vs, wsrc s = VCon ty c vs);
    ss_read : forall ty fs cap more count q f rest s m n, List.length rest <= 3 -> n <= List.length m ->
      wp (fun k => @invoke I thing R (buffer_text verbose) (outside_stream ds0 next ops0 p) eqb conv starts acts k (inr (0, [Fname "source"])) "read"
                     [VPart 0 [Fname "buffer"; Fname "buffer"] n (List.length m - n)]) (at_mem wsrc ty fs cap more count q f rest s m)
         (fits (Done (ds_read ds s (List.length m - n))) (fun r => w_io VNat (snd r))
               (fun r => at_mem wsrc ty fs cap more count q f rest (fst (fst r)) (firstn n m ++ overwrite (snd (fst r)) (skipn n m)))) }.

  Lemma outside_source_says : source_says ds0 w_ksource.
  Proof.
    constructor; [intros s; left; eexists; reflexivity|]. intros ty fs cap more count q f rest s m n Hr Hn.
    destruct (ds_read ds0 s (List.length m - n)) as [[s' w] [k|e]] eqn:Hd; shapes rest Hr; run_to ltac:(rewrite Hd).
  Qed.
  Lemma read_source_says : source_says (read_data_source (ds_read ds0)) (fun s => VCon "ReadDataSource" "" [w_ksource s]).
  Proof.
    constructor; [intros s; right; eexists _, _, _; reflexivity|]. intros ty fs cap more count q f rest s m n Hr Hn.
    unfold read_data_source. cbn [ds_read].
    destruct (ds_read ds0 s (List.length m - n)) as [[s' w] [k|e]] eqn:Hd; shapes rest Hr; run_to ltac:(rewrite Hd).
  Qed.

  Notation w_it := (fun s : St => VCon "IteratorDataSource" "" [w_ksource s]).
  Lemma iterator_loop_at ty fs cap more count q f rest a k : List.length rest <= 3 -> forall r j it m,
    k = j + r -> a + k <= List.length m ->
    let '(it', w, n) := iter_read next r it in
    wp (fun fu => @loop I thing R (buffer_text verbose) (outside_stream ds0 next ops0 p) eqb conv starts acts fu
                   [("n", inr (S (List.length rest))); ("buffer", inl (VPart 0 [Fname "buffer"; Fname "buffer"] a k)); ("self", inl (VRef 0 [Fname "source"]))] iterator_loop)
       (at_mem w_it ty fs cap more count q f (rest ++ [VNat j]) it m)
       (fun o s => o = Val VUnit /\ s = at_mem w_it ty fs cap more count q f (rest ++ [VNat (j + n)]) it' (firstn (a + j) m ++ overwrite w (skipn (a + j) m))).
  Proof.
    intros Hr. induction r as [|r IH]; intros j it m Hk Hm; cbn [iter_read].
    - apply wp_loop. assert (H : j <? k = false) by (apply Nat.ltb_ge; lia).
      shapes rest Hr; cbn [List.length app].
      all: eapply wp_deep; [intros fu K; destruct verbose; evaluate_buffer; rewrite H; reflexivity|]; cbv beta iota;
        rewrite Nat.add_0_r; cbn [overwrite]; rewrite firstn_skipn; split; reflexivity.
    - assert (H : j <? k = true) by (apply Nat.ltb_lt; lia). destruct (next it) as [[x|] it1] eqn:Hn.
      + specialize (IH (S j) it1 (firstn (a + j) m ++ overwrite [Some x] (skipn (a + j) m))).
        destruct (iter_read next r it1) as [[it' w] n]. apply wp_loop.
        rewrite overwrite_step_length, !Nat.add_succ_r, overwrite_step, Nat.add_succ_l in IH by lia. specialize (IH ltac:(lia) ltac:(lia)).
        shapes rest Hr; cbn [List.length app].
        all: eapply wp_deep; [intros fu K; destruct verbose; evaluate_buffer; rewrite H, Hn; reflexivity|]; cbv beta iota;
          replace (j + 1) with (S j) by lia; rewrite Nat.add_succ_r; exact IH.
      + apply wp_loop. shapes rest Hr; cbn [List.length app].
        all: eapply wp_deep; [intros fu K; destruct verbose; evaluate_buffer; rewrite H, Hn; reflexivity|]; cbv beta iota;
          rewrite Nat.add_0_r; cbn [overwrite]; rewrite firstn_skipn; split; reflexivity.
  Qed.
  Lemma iterator_source_says : source_says (iter_data_source next) w_it.
  Proof.
    constructor; [intros s; right; eexists _, _, _; reflexivity|]. intros ty fs cap more count q f rest it m a Hr Hn.
    set (k := List.length m - a). assert (Hm : a + k <= List.length m) by lia. clearbody k.
    unfold iter_data_source. cbn [ds_read].
    pose proof (@iterator_loop_at ty fs cap more count q f rest a k Hr k 0 it m eq_refl Hm) as HL.
    destruct (iter_read next k it) as [[it' w] n]. rewrite Nat.add_0_r in HL.
    shapes rest Hr; cbn [List.length app] in HL.
    all: eapply wp_invoke_apply; [reflexivity|reflexivity|reflexivity|]; eapply wp_apply; [reflexivity|reflexivity|]; apply wp_let.
    all: eapply wp_deep; [intros fu K; destruct verbose; evaluate_buffer; reflexivity|]; cbn [pass]; eexists _, _; (split; [reflexivity|]); apply wp_seq; apply wp_eloop.
    all: (eapply wp_conseq; [exact HL|]); intros o s [-> ->]; cbn [pass]; (eapply wp_deep; [intros fu K; destruct verbose; evaluate_buffer; reflexivity|]); split; reflexivity.
  Qed.

  Lemma object_says : buffer_says (R := R) verbose eqb ds0 ds0 next ops0 p conv starts acts ops0 w_ksource w_kbuffer (fun _ => True).
  Proof.
    constructor.
    - intros s. left. eexists. reflexivity.
    - intros b. left. eexists. reflexivity.
    - intros b s q f rest _ Hr. destruct (op_len ops0 b) eqn:H; shapes rest Hr; run_to ltac:(rewrite H).
    - intros b s q f rest _ Hr. shapes rest Hr; run_to idtac.
    - intros b s q f rest _ Hr. destruct (op_deref ops0 b) eqn:H; shapes rest Hr; run_to ltac:(rewrite H).
    - intros b s q f rest k _ Hr. destruct (op_request_space ops0 b k) eqn:H; shapes rest Hr; run_to ltac:(rewrite H).
    - intros b s q f rest k _ Hr. destruct (op_consume ops0 b k) eqn:H; shapes rest Hr; run_to ltac:(rewrite H).
    - intros b s q f rest _ Hr. destruct (op_fill ops0 ds0 b s) as [[[b1 s1] [n|e]]| | |] eqn:H; shapes rest Hr; run_to ltac:(rewrite H).
    - trivial.
    - trivial.
    - trivial.
  Qed.

  Section Source.
  Notation wg := (@w_growing I thing).
  Variable wsrc : St -> value.
  Hypothesis HSrc : source_says ds wsrc.
  Ltac leaf t := eapply wp_deep; [intros ? ?; destruct verbose; evaluate_buffer; t; reflexivity|cbv beta iota delta [pass caught st_cut st_len fits]].

  (** The source as an argument. *)
  Lemma place_arg {B : Type} (wb : B -> value) en b s q f rest (Q : out I thing spot -> list value -> Prop) :
    find_var en "s" = Some (inl (VRef 0 [Fname "source"])) ->
    Q (Val (inr (0, [Fname "source"]))) (at_src wsrc wb b s q f rest) ->
    wp (fun m => @place I thing R (buffer_text verbose) (outside_stream ds0 next ops0 p) eqb conv starts acts m en (EVar "s")) (at_src wsrc wb b s q f rest) Q.
  Proof.
    intros He HQ. destruct (ss_shape HSrc s) as [[o Ho]|(ty & c & vs & Ho)];
      (apply wp_ends with (o := Val (inr (0, [Fname "source"]))) (s' := at_src wsrc wb b s q f rest); [|exact HQ]);
      exists 2; intros m Hm K; (destruct m as [|[|m]]; [lia|lia|]); cbn [Rust.place]; rewrite He; unfold at_src; rewrite Ho; reflexivity.
  Qed.

  Lemma fixed_fill_at cap more count b s q f rest : List.length rest <= 3 ->
    wp (fun m => @invoke I thing R (buffer_text verbose) (outside_stream ds0 next ops0 p) eqb conv starts acts m
                   (inr (0, [Fname "buffer"])) "fill" [VRef 0 [Fname "source"]]) (at_src wsrc (w_fixed cap more count) b s q f rest)
       (fits (fixed_fill ds b s) (fun x => w_io VNat (snd x)) (fun x => at_src wsrc (w_fixed cap more count) (fst (fst x)) (snd (fst x)) q f rest)).
  Proof.
    intros Hr. destruct b as [m n u]. unfold fixed_fill, assert. cbn [f_mem f_populated f_used].
    eapply wp_invoke_apply; [reflexivity|reflexivity|destruct verbose; reflexivity|]. eapply wp_apply; [destruct verbose; reflexivity|reflexivity|].
    apply wp_method. apply wp_place_method. apply wp_method. apply place_arg; [reflexivity|]. cbn [pass]. apply wp_args_cons.
    pose proof (@ss_read _ _ HSrc "FixedSizeBuffer" [("populated", VNat n); ("used", w_cell u)] cap more count q f rest s m n Hr) as HR.
    destruct (n <=? List.length m) eqn:H1; cbn [run_bind]; [|shapes rest Hr; (leaf ltac:(rewrite !Nat.ltb_antisym, H1); reflexivity)].
    specialize (HR (proj1 (Nat.leb_le _ _) H1)).
    shapes rest Hr.
    all: leaf ltac:(rewrite !Nat.ltb_antisym, H1; cbn [negb]; rewrite Nat.leb_refl; cbn [negb]); apply wp_args_nil; cbn [pass].
    all: (eapply wp_conseq; [exact HR|]); intros o s1; destruct (ds_read ds s (List.length m - n)) as [[s' w] [k|e]]; cbn [fits fst snd w_io]; intros [-> ->]; cbn [pass].
    all: apply wp_args_cons; leaf idtac; apply wp_args_nil; cbn [pass].
    all: try (leaf idtac; split; reflexivity).
    all: apply wp_map_ok; [destruct verbose; reflexivity|discriminate|]; eapply wp_apply_closure; [reflexivity|].
    all: destruct (n + k <=? List.length (firstn n m ++ overwrite w (skipn n m))) eqn:H2; cbn [run_bind].
    all: leaf ltac:(try (cbv delta [app] in H2; rewrite H2)); try split; reflexivity.
  Qed.
  Lemma growing_fill_at b s q f rest : List.length rest <= 3 ->
    wp (fun m => @invoke I thing R (buffer_text verbose) (outside_stream ds0 next ops0 p) eqb conv starts acts m
                   (inr (0, [Fname "buffer"])) "fill" [VRef 0 [Fname "source"]]) (at_src wsrc wg b s q f rest)
       (fits (growing_fill ds b s) (fun x => w_io VNat (snd x)) (fun x => at_src wsrc wg (fst (fst x)) (snd (fst x)) q f rest)).
  Proof.
    intros Hr. destruct b as [m cap n limit u more count]. unfold growing_fill, assert. cbn [g_mem g_populated g_used g_cap g_limit g_alloc g_count].
    eapply wp_invoke_apply; [reflexivity|reflexivity|destruct verbose; reflexivity|]. eapply wp_apply; [destruct verbose; reflexivity|reflexivity|].
    apply wp_method. apply wp_place_method. apply wp_method. apply place_arg; [reflexivity|]. cbn [pass]. apply wp_args_cons.
    pose proof (@ss_read _ _ HSrc "GrowingBuffer" [("populated", VNat n); ("limit", VNat limit); ("used", w_cell u)] cap more count q f rest s m n Hr) as HR.
    destruct (n <=? List.length m) eqn:H1; cbn [run_bind]; [|shapes rest Hr; (leaf ltac:(rewrite !Nat.ltb_antisym, H1); reflexivity)].
    specialize (HR (proj1 (Nat.leb_le _ _) H1)).
    shapes rest Hr.
    all: leaf ltac:(rewrite !Nat.ltb_antisym, H1; cbn [negb]; rewrite Nat.leb_refl; cbn [negb]); apply wp_args_nil; cbn [pass].
    all: (eapply wp_conseq; [exact HR|]); intros o s1; destruct (ds_read ds s (List.length m - n)) as [[s' w] [k|e]]; cbn [fits fst snd w_io]; intros [-> ->]; cbn [pass].
    all: apply wp_args_cons; leaf idtac; apply wp_args_nil; cbn [pass].
    all: try (leaf idtac; split; reflexivity).
    all: apply wp_map_ok; [destruct verbose; reflexivity|discriminate|]; eapply wp_apply_closure; [reflexivity|].
    all: destruct (n + k <=? List.length (firstn n m ++ overwrite w (skipn n m))) eqn:H2; cbn [run_bind].
    all: leaf ltac:(try (cbv delta [app] in H2; rewrite H2)); try split; reflexivity.
  Qed.
  Section Fixed.
    Variable cap count : nat.
    Variable more : nat -> nat.
    Lemma fixed_says : buffer_says (R := R) verbose eqb ds0 ds next ops0 p conv starts acts (fixed_ops I) wsrc (w_fixed cap more count) (fun _ => True).
    Proof.
      constructor.
      - exact (ss_shape HSrc).
      - intros b. right. eexists _, _. reflexivity.
      - intros [m n u] s q f rest _ Hr. cbn [op_len fixed_ops]. unfold fixed_len, usize_sub. cbn [f_mem f_populated f_used].
        destruct (u <=? n) eqn:H; shapes rest Hr; run_to ltac:(rewrite Nat.ltb_antisym, H).
      - intros [m n u] s q f rest _ Hr. cbn [op_capacity fixed_ops]. shapes rest Hr; run_to idtac.
      - intros [m n u] s q f rest _ Hr. cbn [op_deref fixed_ops]. unfold fixed_deref, assert. cbn [f_mem f_populated f_used].
        destruct (u <=? n) eqn:H1; cbn [andb run_bind]; [|shapes rest Hr; run_to ltac:(rewrite !Nat.ltb_antisym, H1)].
        destruct (n <=? List.length m) eqn:H2; cbn [run_bind]; [|shapes rest Hr; run_to ltac:(rewrite !Nat.ltb_antisym, H1; cbn [negb]; rewrite H2)].
        destruct (expose_cases (firstn (n - u) (skipn u m))) as [[l H3]|H3]; rewrite H3;
          (shapes rest Hr; run_to ltac:(rewrite !Nat.ltb_antisym, H1; cbn [negb]; rewrite H2; cbn [negb]; rewrite H3)).
      - intros [m n u] s q f rest k _ Hr. cbn [op_request_space fixed_ops]. unfold fixed_request_space, assert, usize_sub, copy_down. cbn [f_mem f_populated f_used].
        destruct (u <=? n) eqn:H1; cbn [run_bind]; [|shapes rest Hr; run_to ltac:(rewrite H1)].
        destruct (n <=? List.length m) eqn:H2; cbn [run_bind]; [|shapes rest Hr; run_to ltac:(rewrite H1, !(Nat.ltb_antisym n), H2)].
        destruct (List.length m - n <? k) eqn:H3; cbn [run_bind];
          [|shapes rest Hr; run_to ltac:(rewrite H1, !(Nat.ltb_antisym n), H2; cbn [negb]; rewrite H3)].
        assert (H4 : u + (n - u) <=? List.length m = true) by (apply Nat.leb_le; apply Nat.leb_le in H1, H2; lia).
        assert (H5 : n - u <=? List.length m = true) by (apply Nat.leb_le; apply Nat.leb_le in H1, H2; lia).
        rewrite H4. cbn [run_bind].
        shapes rest Hr; run_to ltac:(rewrite H1, !(Nat.ltb_antisym n), H2; cbn [negb]; rewrite H3, !Nat.ltb_antisym, H1; cbn [negb]; rewrite ?Nat.add_0_l, H4, H5).
      - intros [m n u] s q f rest k _ Hr. cbn [op_consume fixed_ops]. unfold fixed_consume, assert. cbn [f_mem f_populated f_used].
        destruct (u + k <=? n) eqn:H; cbn [run_bind]; shapes rest Hr; run_to ltac:(rewrite H).
      - intros b s q f rest _ Hr. apply fixed_fill_at. exact Hr.
      - trivial.
      - trivial.
      - trivial.
    Qed.
  End Fixed.

  (** The length of a vector is at most its capacity. *)
  Definition vec_ok (b : growing I) : Prop := List.length (g_mem b) <= g_cap b.

  Notation buffer_env k := [("items", inl (VNat k)); ("self", inl (VRef 0 [Fname "buffer"]))].

  Lemma growing_move_at (b : growing I) s q f rest k :
    List.length rest <= 3 -> g_used b <= g_populated b ->
    wp (fun m => @eval I thing R (buffer_text verbose) (outside_stream ds0 next ops0 p) eqb conv starts acts m (buffer_env k) move_text) (at_src wsrc wg b s q f rest)
       (fits (growing_move b k) (fun _ => VUnit) (fun b => at_src wsrc wg b s q f rest)).
  Proof.
    intros Hr. destruct b as [m cap n limit u more count]. unfold growing_move, usize_sub, copy_down. cbn [g_mem g_populated g_used]. intros H1%Nat.leb_le.
    destruct (n <=? List.length m) eqn:H2; cbn [run_bind]; [|shapes rest Hr; run_to ltac:(rewrite !(Nat.ltb_antisym n), H2)].
    destruct (List.length m - n <? k) eqn:H3; cbn [run_bind];
      [|shapes rest Hr; run_to ltac:(rewrite !(Nat.ltb_antisym n), H2; cbn [negb]; rewrite H3)].
    rewrite H1. cbn [run_bind].
    assert (H4 : u + (n - u) <=? List.length m = true) by (apply Nat.leb_le; apply Nat.leb_le in H1, H2; lia).
    assert (H5 : n - u <=? List.length m = true) by (apply Nat.leb_le; apply Nat.leb_le in H1, H2; lia).
    rewrite H4. cbn [run_bind].
    shapes rest Hr; run_to ltac:(rewrite !(Nat.ltb_antisym n), H2; cbn [negb]; rewrite H3, !Nat.ltb_antisym, H1; cbn [negb]; rewrite ?Nat.add_0_l, H4, H5).
  Qed.

  Lemma growing_request_at (b : growing I) s q f rest k : vec_ok b -> List.length rest <= 3 ->
    wp (fun m => @invoke I thing R (buffer_text verbose) (outside_stream ds0 next ops0 p) eqb conv starts acts m
                   (inr (0, [Fname "buffer"])) "request_space" [VNat k]) (at_src wsrc wg b s q f rest)
       (fits (growing_request_space b k) (fun _ => VUnit) (fun b => at_src wsrc wg b s q f rest)).
  Proof.
    intros HL Hr. unfold vec_ok in HL. change (growing_request_space b k) with
        (if negb (g_limit b =? 0) && (g_limit b <? g_cap b) then Done b
         else let! l := growing_len b in
              growing_move (if g_cap b <? k + l then growing_set_len (growing_reserve b k) else b) k).
    assert (HM : forall b' : growing I, g_used b' <= g_populated b' ->
        wp (fun m => @eval I thing R (buffer_text verbose) (outside_stream ds0 next ops0 p) eqb conv starts acts m (buffer_env k) move_text) (at_src wsrc wg b' s q f rest)
         (fun o s1 => fits (growing_move b' k) (fun _ => VUnit) (fun b => at_src wsrc wg b s q f rest) (caught o) (st_cut s1 (S (List.length rest))))).
    { intros b' Hb'. eapply wp_conseq; [apply growing_move_at; [exact Hr|exact Hb']|]. intros o s1.
      destruct (growing_move b' k); cbn [fits]; [intros [-> ->]|intros ->; reflexivity|intros ->; reflexivity|exact (fun H => H)].
      split; [reflexivity|]. shapes rest Hr; reflexivity. }
    destruct b as [m cap n limit u more count]. unfold growing_len, usize_sub. cbn [g_mem g_populated g_used g_limit g_cap] in *.
    shapes rest Hr; cbn [List.length] in HM.
    all: eapply wp_invoke_apply; [reflexivity|reflexivity|reflexivity|]; eapply wp_apply; [reflexivity|reflexivity|]; apply wp_seq.
    all: destruct (limit =? 0) eqn:H1; [|destruct (limit <? cap) eqn:H2]; cbn [negb andb];
         [leaf ltac:(rewrite H1)|leaf ltac:(rewrite H1; cbn [negb]; rewrite H2); split; reflexivity|leaf ltac:(rewrite H1; cbn [negb]; rewrite H2)].
    all: apply wp_seq; destruct (u <=? n) eqn:H3; cbn [run_bind]; [|leaf ltac:(rewrite Nat.ltb_antisym, H3); reflexivity].
    all: destruct (cap <? k + (n - u)) eqn:H4;
           [|leaf ltac:(rewrite Nat.ltb_antisym, H3; cbn [negb]; rewrite H4); apply (HM (mkGrowing m cap n limit u more count)); apply Nat.leb_le; exact H3].
    all: unfold growing_reserve; cbn [g_mem g_cap g_alloc g_count g_limit g_used g_populated]; destruct (k <=? cap - List.length m) eqn:H5;
      [leaf ltac:(rewrite Nat.ltb_antisym, H3; cbn [negb]; rewrite H4, H5, Nat.leb_refl, firstn_all2 by exact HL);
       apply (HM (growing_set_len (mkGrowing m cap n limit u more count))); apply Nat.leb_le; exact H3
      |leaf ltac:(rewrite Nat.ltb_antisym, H3; cbn [negb]; rewrite H4, H5, Nat.leb_refl, firstn_all2 by lia);
       apply (HM (growing_set_len (mkGrowing m (List.length m + k + more count) n limit u more (S count)))); apply Nat.leb_le; exact H3].
  Qed.

  Lemma growing_request_ok (b b' : growing I) k : vec_ok b -> growing_request_space b k = Done b' -> vec_ok b'.
  Proof.
    unfold vec_ok. intros H. unfold growing_request_space, growing_len, usize_sub, copy_down, growing_set_len, growing_reserve.
    destruct (negb (g_limit b =? 0) && (g_limit b <? g_cap b)); [intros [= <-]; exact H|].
    destruct (g_used b <=? g_populated b); cbn [run_bind]; [|discriminate].
    match goal with |- context [g_mem (if ?c then ?x else b)] => set (b1 := if c then x else b) end.
    assert (H1 : List.length (g_mem b1) <= g_cap b1).
    { unfold b1. destruct (g_cap b <? k + (g_populated b - g_used b)); [|exact H].
      destruct (k <=? g_cap b - List.length (g_mem b)); cbn [g_mem g_cap]; rewrite app_length, repeat_length; lia. }
    clearbody b1. destruct (g_populated b1 <=? List.length (g_mem b1)); cbn [run_bind]; [|discriminate].
    destruct (List.length (g_mem b1) - g_populated b1 <? k); [|intros [= <-]; exact H1].
    destruct (g_used b1 <=? g_populated b1); cbn [run_bind]; [|discriminate].
    destruct (g_used b1 + (g_populated b1 - g_used b1) <=? List.length (g_mem b1)) eqn:H2; cbn [run_bind]; [|discriminate].
    intros [= <-]. cbn [g_mem g_cap]. apply Nat.leb_le in H2. rewrite app_length, firstn_length, !skipn_length. lia.
  Qed.

  Lemma growing_says : buffer_says (R := R) verbose eqb ds0 ds next ops0 p conv starts acts (growing_ops I) wsrc wg vec_ok.
  Proof.
    constructor.
    - exact (ss_shape HSrc).
    - intros b. right. eexists _, _. reflexivity.
    - intros [m cap n limit u more count] s q f rest _ Hr. cbn [op_len growing_ops]. unfold growing_len, usize_sub. cbn [g_mem g_populated g_used].
      destruct (u <=? n) eqn:H; shapes rest Hr; run_to ltac:(rewrite Nat.ltb_antisym, H).
    - intros [m cap n limit u more count] s q f rest _ Hr. cbn [op_capacity growing_ops]. shapes rest Hr; run_to idtac.
    - intros [m cap n limit u more count] s q f rest _ Hr. cbn [op_deref growing_ops]. unfold growing_deref, assert. cbn [g_mem g_populated g_used].
      destruct (u <=? n) eqn:H1; cbn [andb run_bind]; [|shapes rest Hr; run_to ltac:(rewrite !Nat.ltb_antisym, H1)].
      destruct (n <=? List.length m) eqn:H2; cbn [run_bind]; [|shapes rest Hr; run_to ltac:(rewrite !Nat.ltb_antisym, H1; cbn [negb]; rewrite H2)].
      destruct (expose_cases (firstn (n - u) (skipn u m))) as [[l H3]|H3]; rewrite H3;
        (shapes rest Hr; run_to ltac:(rewrite !Nat.ltb_antisym, H1; cbn [negb]; rewrite H2; cbn [negb]; rewrite H3)).
    - intros b s q f rest k Hok Hr. apply growing_request_at; assumption.
    - intros [m cap n limit u more count] s q f rest k _ Hr. cbn [op_consume growing_ops]. unfold growing_consume, assert. cbn [g_mem g_populated g_used].
      destruct (u + k <=? n) eqn:H; cbn [run_bind]; shapes rest Hr; run_to ltac:(rewrite H).
    - intros b s q f rest _ Hr. apply growing_fill_at. exact Hr.
    - intros b k b'. apply growing_request_ok.
    - unfold vec_ok. intros b k b' H. cbn [op_consume growing_ops]. unfold growing_consume, assert.
      destruct (g_used b + k <=? g_populated b); cbn [run_bind]; [intros [= <-]; exact H|discriminate].
    - unfold vec_ok. intros b s x H. cbn [op_fill growing_ops]. unfold growing_fill, assert.
      destruct (g_populated b <=? List.length (g_mem b)) eqn:H1; cbn [run_bind]; [|discriminate]. apply Nat.leb_le in H1.
      destruct (ds_read ds s (List.length (g_mem b) - g_populated b)) as [[s' w] [k|e]].
      + destruct (g_populated b + k <=? _); cbn [run_bind]; [|discriminate]. intros [= <-]. cbn [fst g_mem g_cap].
        rewrite app_length, overwrite_length, firstn_length, skipn_length. lia.
      + intros [= <-]. cbn [fst g_mem g_cap]. rewrite app_length, overwrite_length, firstn_length, skipn_length. lia.
  Qed.
  End Source.
End Instances.

(** * The constructors of a Source *)

Section Constructors.
  Context {St B0 T E I R : Type}.
  Notation thing := (stream_thing St B0 T E).
  Notation value := (value I thing).
  Variable verbose : bool.
  Variable eqb : I -> I -> bool.
  Variable ds : data_source St I.
  Variable next : St -> option I * St.
  Variable ops0 : buffer_ops I B0.
  Variable p : parser I T E.
  Variable cap0 : nat.
  Variable extra alloc : nat -> nat.
  Notation conv := (new_vectors cap0 extra alloc).
  Variable starts : thing.
  Variable acts : thing -> caction value value thing.
  Notation says ty f vs s r wv ws :=
    (wp (fun m => @apply I thing R (buffer_text verbose) (outside_stream ds next ops0 p) eqb conv starts acts m (inl (VFn ty f)) vs) s (fits r wv ws)).
  Ltac leaf t := eapply wp_deep; [intros ? ?; destruct verbose; evaluate_buffer; t; reflexivity|cbv beta iota delta [pass caught st_cut st_len fits]].

  Lemma text_read_into_inner_says v : says "ReadDataSource" "into_inner" [VCon "ReadDataSource" "" [VObj (KSource v)]] [] (Done v) w_ksource (fun _ => []).
  Proof. eapply wp_apply; [reflexivity|reflexivity|]. leaf idtac. split; reflexivity. Qed.
  Lemma text_iterator_into_inner_says v :
    says "IteratorDataSource" "into_inner" [VCon "IteratorDataSource" "" [VObj (KSource v)]] [] (Done v) w_ksource (fun _ => []).
  Proof. eapply wp_apply; [reflexivity|reflexivity|]. leaf idtac. split; reflexivity. Qed.
  Lemma text_src_from_read_says {B : Type} (wb : B -> value) s b :
    says "Source" "from_read" [w_ksource s; wb b] [] (Done (src_with_buffer s b)) (w_src (fun s => VCon "ReadDataSource" "" [w_ksource s]) wb) (fun _ => []).
  Proof. eapply wp_apply; [reflexivity|reflexivity|]. leaf idtac. split; reflexivity. Qed.
  Lemma text_src_from_iter_says {B : Type} (wb : B -> value) s b :
    says "Source" "from_iter" [w_ksource s; wb b] [] (Done (src_with_buffer s b)) (w_src (fun s => VCon "IteratorDataSource" "" [w_ksource s]) wb) (fun _ => []).
  Proof. eapply wp_apply; [reflexivity|reflexivity|]. leaf idtac. split; reflexivity. Qed.
  Lemma text_src_new_says s :
    says "Source" "new" [w_ksource s] [] (let! b := fixed_with_size (6 * 1024) in Done (src_with_buffer s b))
      (w_src (fun s => VCon "ReadDataSource" "" [w_ksource s]) (w_fixed (6 * 1024 + extra (6 * 1024)) alloc 0)) (fun _ => []).
  Proof.
    eapply wp_apply; [reflexivity|reflexivity|]. apply wp_call. leaf idtac. apply wp_args_cons. leaf idtac. apply wp_args_cons.
    apply wp_call. leaf idtac. apply wp_args_nil. cbn [pass].
    eapply wp_conseq; [apply text_fixed_new_says|]. intros o s1. destruct (fixed_with_size (6 * 1024)) as [b| | |] eqn:H; cbn [fits run_bind].
    - intros [-> ->]. cbn [pass]. apply wp_args_nil. cbn [pass]. eapply wp_apply; [reflexivity|reflexivity|]. leaf idtac. split; reflexivity.
    - intros ->. reflexivity.
    - intros ->. reflexivity.
    - discriminate H.
  Qed.
End Constructors.
