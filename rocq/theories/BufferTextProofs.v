(** The text of src/buffer/slice.rs, src/buffer/buffer.rs and src/buffer/data_source.rs means what the model says. *)
From Coq Require Import List Bool Arith String Lia.
From Verif Require Import Base Combinators Buffer Stream Rust RustText BufferText TextModel TextProofs TextLoop TextWp BufferTextModel.
Import ListNotations.

Set Implicit Arguments.
Local Open Scope string_scope.
Local Open Scope list_scope.
Local Open Scope nat_scope.

Ltac evaluate_buffer := match goal with |- ?l = _ =>
  let l' := eval cbv -[Nat.leb Nat.ltb Nat.eqb Nat.sub Nat.max Nat.add Nat.mul firstn skipn List.length List.map nth_error overwrite expose repeat ds_read op_len op_capacity op_deref op_request_space op_consume op_fill
                       Parsers.position Parsers.position_st Parsers.string_mismatch std_position each] in l in change l with l' end.

Lemma expose_cases {I : Type} (m : memory I) : (exists l, expose m = Done l) \/ expose m = Undefined.
Proof.
  induction m as [|[x|] m IH]; [left; exists []; reflexivity| |right; reflexivity]. cbn [expose].
  destruct IH as [[l ->]| ->]; [left; exists (x :: l); reflexivity|right; reflexivity].
Qed.

Lemma overwrite_step {I : Type} (x : I) (w : memory I) : forall (m : memory I) c, c < List.length m ->
  firstn (S c) (firstn c m ++ overwrite [Some x] (skipn c m)) ++ overwrite w (skipn (S c) (firstn c m ++ overwrite [Some x] (skipn c m)))
  = firstn c m ++ overwrite (Some x :: w) (skipn c m).
Proof.
  induction m as [|y m IH]; intros c Hc; [cbn in Hc; lia|]. destruct c as [|c].
  - cbn [firstn skipn app overwrite]. destruct m; reflexivity.
  - cbn [firstn skipn app]. f_equal. apply IH. cbn in Hc. lia.
Qed.
Lemma overwrite_step_length {I : Type} (x : I) : forall (m : memory I) c, List.length (firstn c m ++ overwrite [Some x] (skipn c m)) = List.length m.
Proof.
  induction m as [|y m IH]; intros [|c]; [reflexivity|reflexivity|destruct m; reflexivity|].
  cbn [firstn skipn app List.length]. f_equal. apply IH.
Qed.

Section Buffers.
  Context {St B T E I R : Type}.
  Notation thing := (stream_thing St B T E).
  Notation value := (value I thing).
  Variable verbose : bool.
  Variable eqb : I -> I -> bool.
  Variable ds : data_source St I.
  Variable next : St -> option I * St.
  Variable ops : buffer_ops I B.
  Variable p : parser I T E.
  Variable cap0 : nat.
  Variable extra alloc : nat -> nat.
  Notation conv := (new_vectors cap0 extra alloc).
  Variable starts : thing.
  Variable acts : thing -> caction value value thing.
  Notation apply := (@apply I thing R (buffer_text verbose) (outside_stream ds next ops p) eqb conv starts acts).
  Notation invoke := (@invoke I thing R (buffer_text verbose) (outside_stream ds next ops p) eqb conv starts acts).
  Notation says ty f vs s r wv ws := (wp (fun m => apply m (inl (VFn ty f)) vs) s (fits r wv ws)).

  Ltac run_to t :=
    match goal with
    | |- wp _ _ (fits (Done ?a) ?wv ?ws) => apply wp_deep with (o := Val (wv a)) (s' := ws a); [|split; reflexivity]
    | |- wp _ _ (fits Panicked _ _) => eapply wp_deep with (o := Panicking); [|reflexivity]
    | |- wp _ _ (fits Undefined _ _) => eapply wp_deep with (o := Wrong); [|reflexivity]
    end; intros ? ?; destruct verbose; evaluate_buffer; t; reflexivity.

  (** * src/buffer/slice.rs *)

  Lemma text_slice_new_says b : says "SliceStream" "new" [VSlice b] [] (Done (slice_new b)) w_slices (fun _ => []).
  Proof. run_to idtac. Qed.
  Lemma text_into_stream_says b : says "slice" "into_stream" [VSlice b] [] (Done (slice_new b)) w_slices (fun _ => []).
  Proof. run_to idtac. Qed.
  Lemma text_slice_len_says s : says "SliceStream" "len" [VRef 0 []] [w_slices s] (slice_len s) VNat (fun _ => [w_slices s]).
  Proof.
    unfold slice_len, usize_sub. destruct s as [pos b]. cbn [ss_pos ss_slice].
    destruct (pos <=? List.length b) eqn:H; run_to ltac:(rewrite Nat.ltb_antisym, H).
  Qed.
  Lemma text_slice_is_empty_says s : says "SliceStream" "is_empty" [VRef 0 []] [w_slices s] (slice_is_empty s) VBool (fun _ => [w_slices s]).
  Proof.
    unfold slice_is_empty, slice_len, usize_sub. destruct s as [pos b]. cbn [ss_pos ss_slice].
    destruct (pos <=? List.length b) eqn:H; cbn [run_bind]; run_to ltac:(rewrite Nat.ltb_antisym, H).
  Qed.
  Lemma text_slice_parse_says s :
    slice_parse p s <> Stuck ->
    says "SliceStream" "parse" [VRef 0 []; VObj KParser] [w_slices s] (slice_parse p s) (fun x => w_sres w_kvalue w_kerr (snd x)) (fun x => [w_slices (fst x)]).
  Proof.
    unfold slice_parse, slice_is_empty, slice_len, usize_sub. destruct s as [pos b]. cbn [ss_pos ss_slice].
    destruct (pos <=? List.length b) eqn:H; cbn [run_bind]; [|intros _; run_to ltac:(rewrite !Nat.ltb_antisym, H)].
    destruct (List.length b - pos =? 0) eqn:H0; [intros _; run_to ltac:(rewrite !Nat.ltb_antisym, H; cbn [negb]; rewrite H0)|].
    destruct (p (mkInput true (skipn pos b))) as [[l b'] t|b' e|n| |] eqn:Hp; cbn [run_bind buf]; intros HF.
    - destruct (List.length b' <=? List.length b - pos) eqn:H1; cbn [run_bind];
        destruct l; run_to ltac:(rewrite !Nat.ltb_antisym, H; cbn [negb]; rewrite H0, Hp; rewrite !Nat.ltb_antisym, H1).
    - destruct (List.length b' <=? List.length b - pos) eqn:H1; cbn [run_bind];
        run_to ltac:(rewrite !Nat.ltb_antisym, H; cbn [negb]; rewrite H0, Hp; rewrite !Nat.ltb_antisym, H1).
    - run_to ltac:(rewrite !Nat.ltb_antisym, H; cbn [negb]; rewrite H0, Hp).
    - run_to ltac:(rewrite !Nat.ltb_antisym, H; cbn [negb]; rewrite H0, Hp).
    - contradiction.
  Qed.

  (** * src/buffer/buffer.rs, FixedSizeBuffer *)

  Section Fixed.
    Variable cap count : nat.
    Variable more : nat -> nat.
    Notation wb := (w_fixed cap more count).

    Lemma text_fixed_deref_says b : says "FixedSizeBuffer" "deref" [VRef 0 []] [wb b] (fixed_deref b) VSlice (fun _ => [wb b]).
    Proof.
      destruct b as [m n u]. unfold fixed_deref, assert. cbn [f_mem f_populated f_used].
      destruct (u <=? n) eqn:H1; cbn [andb run_bind]; [|run_to ltac:(rewrite !Nat.ltb_antisym, H1)].
      destruct (n <=? List.length m) eqn:H2; cbn [run_bind]; [|run_to ltac:(rewrite !Nat.ltb_antisym, H1; cbn [negb]; rewrite H2)].
      destruct (expose_cases (firstn (n - u) (skipn u m))) as [[l H3]|H3]; rewrite H3;
        run_to ltac:(rewrite !Nat.ltb_antisym, H1; cbn [negb]; rewrite H2; cbn [negb]; rewrite H3).
    Qed.
    Lemma text_fixed_len_says b : says "FixedSizeBuffer" "len" [VRef 0 []] [wb b] (fixed_len b) VNat (fun _ => [wb b]).
    Proof.
      destruct b as [m n u]. unfold fixed_len, usize_sub. cbn [f_mem f_populated f_used].
      destruct (u <=? n) eqn:H; run_to ltac:(rewrite Nat.ltb_antisym, H).
    Qed.
    Lemma text_fixed_capacity_says b :
      says "FixedSizeBuffer" "capacity" [VRef 0 []] [wb b] (Done (fixed_capacity b)) VNat (fun _ => [wb b]).
    Proof. destruct b as [m n u]. run_to idtac. Qed.
    Lemma text_fixed_consume_says b k :
      says "FixedSizeBuffer" "consume" [VRef 0 []; VNat k] [wb b] (fixed_consume b k) (fun _ => VUnit) (fun b => [wb b]).
    Proof.
      destruct b as [m n u]. unfold fixed_consume, assert. cbn [f_mem f_populated f_used].
      destruct (u + k <=? n) eqn:H; cbn [run_bind]; run_to ltac:(rewrite H).
    Qed.
    Lemma text_fixed_request_says b k :
      says "FixedSizeBuffer" "request_space" [VRef 0 []; VNat k] [wb b] (fixed_request_space b k) (fun _ => VUnit) (fun b => [wb b]).
    Proof.
      destruct b as [m n u]. unfold fixed_request_space, assert, usize_sub, copy_down. cbn [f_mem f_populated f_used].
      destruct (u <=? n) eqn:H1; cbn [run_bind]; [|run_to ltac:(rewrite H1)].
      destruct (n <=? List.length m) eqn:H2; cbn [run_bind]; [|run_to ltac:(rewrite H1, !(Nat.ltb_antisym n), H2)].
      destruct (List.length m - n <? k) eqn:H3; cbn [run_bind];
        [|run_to ltac:(rewrite H1, !(Nat.ltb_antisym n), H2; cbn [negb]; rewrite H3)].
      assert (H4 : u + (n - u) <=? List.length m = true) by (apply Nat.leb_le; apply Nat.leb_le in H1, H2; lia).
      assert (H5 : n - u <=? List.length m = true) by (apply Nat.leb_le; apply Nat.leb_le in H1, H2; lia).
      rewrite H4. cbn [run_bind].
      run_to ltac:(rewrite H1, !(Nat.ltb_antisym n), H2; cbn [negb]; rewrite H3, !Nat.ltb_antisym, H1; cbn [negb]; rewrite ?Nat.add_0_l, H4, H5).
    Qed.
    Lemma text_fixed_fill_says b s :
      says "FixedSizeBuffer" "fill" [VRef 0 []; VRef 1 []] [wb b; VObj (KSource s)] (fixed_fill ds b s)
        (fun x => w_io VNat (snd x)) (fun x => [wb (fst (fst x)); VObj (KSource (snd (fst x)))]).
    Proof.
      destruct b as [m n u]. unfold fixed_fill, assert. cbn [f_mem f_populated f_used].
      destruct (n <=? List.length m) eqn:H1; cbn [run_bind]; [|run_to ltac:(rewrite !Nat.ltb_antisym, H1)].
      destruct (ds_read ds s (List.length m - n)) as [[s' w] [k|e]] eqn:Hr.
      - destruct (n + k <=? List.length (firstn n m ++ overwrite w (skipn n m))) eqn:H2; cbn [run_bind];
          run_to ltac:(rewrite !Nat.ltb_antisym, H1; cbn [negb]; rewrite Nat.leb_refl; cbn [negb]; rewrite Hr; cbv beta iota; try (cbv delta [app] in H2; rewrite H2)).
      - run_to ltac:(rewrite !Nat.ltb_antisym, H1; cbn [negb]; rewrite Nat.leb_refl; cbn [negb]; rewrite Hr; cbv beta iota; try (cbv delta [app] in H2; rewrite H2)).
    Qed.
    Lemma text_fixed_deref_mut_says b :
      says "FixedSizeBuffer" "deref_mut" [VRef 0 []] [wb b] (let! _ := assert ((f_used b <=? f_populated b) && (f_populated b <=? List.length (f_mem b))) in Done b)
        (fun b => VPart 0 [Fname "buffer"] (f_used b) (f_populated b - f_used b)) (fun b => [wb b]).
    Proof.
      destruct b as [m n u]. unfold assert. cbn [f_mem f_populated f_used].
      destruct (u <=? n) eqn:H1; cbn [andb run_bind]; [|run_to ltac:(rewrite !Nat.ltb_antisym, H1)].
      destruct (n <=? List.length m) eqn:H2; cbn [run_bind]; run_to ltac:(rewrite !Nat.ltb_antisym, H1; cbn [negb]; rewrite H2).
    Qed.
  End Fixed.

  Lemma text_fixed_with_size_says n :
    says "FixedSizeBuffer" "with_size" [VNat n] [] (fixed_with_size n) (w_fixed (n + extra n) alloc 0) (fun _ => []).
  Proof.
    unfold fixed_with_size, assert. destruct (0 <? n) eqn:H; cbn [run_bind]; [|run_to ltac:(rewrite H)].
    assert (H1 : n <=? n + extra n = true) by (apply Nat.leb_le; lia).
    run_to ltac:(rewrite H, H1; cbn [List.length]; rewrite Nat.sub_0_r, firstn_nil).
  Qed.
  Lemma text_fixed_new_says :
    says "FixedSizeBuffer" "new" [] [] (fixed_with_size (6 * 1024)) (w_fixed (6 * 1024 + extra (6 * 1024)) alloc 0) (fun _ => []).
  Proof.
    eapply wp_apply; [reflexivity|reflexivity|]. apply wp_call. eapply wp_deep; [intros k K; destruct verbose; evaluate_buffer; reflexivity|]. cbn [pass].
    apply wp_args_cons. eapply wp_deep; [intros k K; destruct verbose; evaluate_buffer; reflexivity|]. cbn [pass].
    apply wp_args_nil. cbn [pass]. eapply wp_conseq; [apply text_fixed_with_size_says|].
    intros o s. destruct (fixed_with_size (6 * 1024)); cbn [fits]; intuition (subst; reflexivity).
  Qed.

  (** * src/buffer/buffer.rs, GrowingBuffer *)

  Section Growing.
    Notation wb := (@w_growing I thing).

    Lemma text_growing_with_limit_says n : says "GrowingBuffer" "with_limit" [VNat n] [] (Done (growing_with_limit cap0 alloc n)) wb (fun _ => []).
    Proof. run_to idtac. Qed.
    Lemma text_growing_new_says : says "GrowingBuffer" "new" [] [] (Done (growing_with_limit cap0 alloc 0)) wb (fun _ => []).
    Proof. run_to idtac. Qed.
    Lemma text_growing_deref_says b : says "GrowingBuffer" "deref" [VRef 0 []] [wb b] (growing_deref b) VSlice (fun _ => [wb b]).
    Proof.
      destruct b as [m cap n limit u more count]. unfold growing_deref, assert. cbn [g_mem g_populated g_used].
      destruct (u <=? n) eqn:H1; cbn [andb run_bind]; [|run_to ltac:(rewrite !Nat.ltb_antisym, H1)].
      destruct (n <=? List.length m) eqn:H2; cbn [run_bind]; [|run_to ltac:(rewrite !Nat.ltb_antisym, H1; cbn [negb]; rewrite H2)].
      destruct (expose_cases (firstn (n - u) (skipn u m))) as [[l H3]|H3]; rewrite H3;
        run_to ltac:(rewrite !Nat.ltb_antisym, H1; cbn [negb]; rewrite H2; cbn [negb]; rewrite H3).
    Qed.
    Lemma text_growing_deref_mut_says b :
      says "GrowingBuffer" "deref_mut" [VRef 0 []] [wb b] (let! _ := assert ((g_used b <=? g_populated b) && (g_populated b <=? List.length (g_mem b))) in Done b)
        (fun b => VPart 0 [Fname "buffer"] (g_used b) (g_populated b - g_used b)) (fun b => [wb b]).
    Proof.
      destruct b as [m cap n limit u more count]. unfold assert. cbn [g_mem g_populated g_used].
      destruct (u <=? n) eqn:H1; cbn [andb run_bind]; [|run_to ltac:(rewrite !Nat.ltb_antisym, H1)].
      destruct (n <=? List.length m) eqn:H2; cbn [run_bind]; run_to ltac:(rewrite !Nat.ltb_antisym, H1; cbn [negb]; rewrite H2).
    Qed.
    Lemma text_growing_len_says b : says "GrowingBuffer" "len" [VRef 0 []] [wb b] (growing_len b) VNat (fun _ => [wb b]).
    Proof.
      destruct b as [m cap n limit u more count]. unfold growing_len, usize_sub. cbn [g_mem g_populated g_used].
      destruct (u <=? n) eqn:H; run_to ltac:(rewrite Nat.ltb_antisym, H).
    Qed.
    Lemma text_growing_capacity_says b :
      says "GrowingBuffer" "capacity" [VRef 0 []] [wb b] (Done (growing_capacity b)) VNat (fun _ => [wb b]).
    Proof. destruct b as [m cap n limit u more count]. run_to idtac. Qed.
    Lemma text_growing_consume_says b k :
      says "GrowingBuffer" "consume" [VRef 0 []; VNat k] [wb b] (growing_consume b k) (fun _ => VUnit) (fun b => [wb b]).
    Proof.
      destruct b as [m cap n limit u more count]. unfold growing_consume, assert. cbn [g_mem g_populated g_used].
      destruct (u + k <=? n) eqn:H; cbn [run_bind]; run_to ltac:(rewrite H).
    Qed.
    Lemma text_growing_fill_says b s :
      says "GrowingBuffer" "fill" [VRef 0 []; VRef 1 []] [wb b; VObj (KSource s)] (growing_fill ds b s)
        (fun x => w_io VNat (snd x)) (fun x => [wb (fst (fst x)); VObj (KSource (snd (fst x)))]).
    Proof.
      destruct b as [m cap n limit u more count]. unfold growing_fill, assert. cbn [g_mem g_populated g_used].
      destruct (n <=? List.length m) eqn:H1; cbn [run_bind]; [|run_to ltac:(rewrite !Nat.ltb_antisym, H1)].
      destruct (ds_read ds s (List.length m - n)) as [[s' w] [k|e]] eqn:Hr.
      - destruct (n + k <=? List.length (firstn n m ++ overwrite w (skipn n m))) eqn:H2; cbn [run_bind];
          run_to ltac:(rewrite !Nat.ltb_antisym, H1; cbn [negb]; rewrite Nat.leb_refl; cbn [negb]; rewrite Hr; cbv beta iota; try (cbv delta [app] in H2; rewrite H2)).
      - run_to ltac:(rewrite !Nat.ltb_antisym, H1; cbn [negb]; rewrite Nat.leb_refl; cbn [negb]; rewrite Hr; cbv beta iota; try (cbv delta [app] in H2; rewrite H2)).
    Qed.
    (** The part of [request_space] after the vector has been made longer. *)
    Definition growing_move (b : growing I) (items : nat) : run (growing I) :=
      let! room := usize_sub (List.length (g_mem b)) (g_populated b) in
      if room <? items then
        let! n := usize_sub (g_populated b) (g_used b) in
        let! m := copy_down (g_mem b) (g_used b) n in
        Done (mkGrowing m (g_cap b) n (g_limit b) 0 (g_alloc b) (g_count b))
      else Done b.
    Definition move_text : expr := match text_GrowingBuffer_request_space with mkFn _ _ (ESeq _ (ESeq _ e)) => e | _ => EUnit end.
    Lemma text_growing_move_says b k :
      g_used b <= g_populated b ->
      wp (fun m => @eval I thing R (buffer_text verbose) (outside_stream ds next ops p) eqb conv starts acts m
                     [("items", inl (VNat k)); ("self", inl (VRef 0 []))] move_text) [wb b]
         (fits (growing_move b k) (fun _ => VUnit) (fun b => [wb b])).
    Proof.
      destruct b as [m cap n limit u more count]. unfold growing_move, usize_sub, copy_down. cbn [g_mem g_populated g_used]. intros H1%Nat.leb_le.
      destruct (n <=? List.length m) eqn:H2; cbn [run_bind]; [|run_to ltac:(rewrite !(Nat.ltb_antisym n), H2)].
      destruct (List.length m - n <? k) eqn:H3; cbn [run_bind];
        [|run_to ltac:(rewrite !(Nat.ltb_antisym n), H2; cbn [negb]; rewrite H3)].
      rewrite H1. cbn [run_bind].
      assert (H4 : u + (n - u) <=? List.length m = true) by (apply Nat.leb_le; apply Nat.leb_le in H1, H2; lia).
      assert (H5 : n - u <=? List.length m = true) by (apply Nat.leb_le; apply Nat.leb_le in H1, H2; lia).
      rewrite H4. cbn [run_bind].
      run_to ltac:(rewrite !(Nat.ltb_antisym n), H2; cbn [negb]; rewrite H3, !Nat.ltb_antisym, H1; cbn [negb]; rewrite ?Nat.add_0_l, H4, H5).
    Qed.
    Ltac leaf t := eapply wp_deep; [intros ? ?; destruct verbose; evaluate_buffer; t; reflexivity|cbv beta iota delta [pass caught st_cut st_len firstn List.length fits]].
    Lemma text_growing_request_says b k :
      List.length (g_mem b) <= g_cap b ->
      says "GrowingBuffer" "request_space" [VRef 0 []; VNat k] [wb b] (growing_request_space b k) (fun _ => VUnit) (fun b => [wb b]).
    Proof.
      intros HL. change (growing_request_space b k) with
        (if negb (g_limit b =? 0) && (g_limit b <? g_cap b) then Done b
         else let! l := growing_len b in
              growing_move (if g_cap b <? k + l then growing_set_len (growing_reserve b k) else b) k).
      eapply wp_apply; [reflexivity|reflexivity|]. apply wp_seq.
      assert (HM : forall b' : growing I, g_used b' <= g_populated b' ->
        wp (fun m => @eval I thing R (buffer_text verbose) (outside_stream ds next ops p) eqb conv starts acts m
                     [("items", inl (VNat k)); ("self", inl (VRef 0 []))] move_text) [wb b']
         (fun o s => fits (growing_move b' k) (fun _ => VUnit) (fun b => [wb b]) (caught o) (st_cut s 1))).
      { intros b' Hb'. eapply wp_conseq; [apply text_growing_move_says; exact Hb'|]. intros o s.
        destruct (growing_move b' k); cbn [fits]; [intros [-> ->]; split; reflexivity|intros ->; reflexivity|intros ->; reflexivity|exact (fun H => H)]. }
      destruct b as [m cap n limit u more count]. unfold growing_len, usize_sub. cbn [g_mem g_populated g_used g_limit g_cap] in *.
      destruct (limit =? 0) eqn:H1; [|destruct (limit <? cap) eqn:H2]; cbn [negb andb].
      2: { leaf ltac:(rewrite H1; cbn [negb]; rewrite H2). split; reflexivity. }
      1: leaf ltac:(rewrite H1). 2: leaf ltac:(rewrite H1; cbn [negb]; rewrite H2).
      all: apply wp_seq; destruct (u <=? n) eqn:H3; cbn [run_bind]; [|leaf ltac:(rewrite Nat.ltb_antisym, H3); reflexivity].
      all: destruct (cap <? k + (n - u)) eqn:H4;
           [|leaf ltac:(rewrite Nat.ltb_antisym, H3; cbn [negb]; rewrite H4); apply (HM (mkGrowing m cap n limit u more count)); apply Nat.leb_le; exact H3].
      all: unfold growing_reserve; cbn [g_mem g_cap g_alloc g_count g_limit g_used g_populated]; destruct (k <=? cap - List.length m) eqn:H5.
      1,3: leaf ltac:(rewrite Nat.ltb_antisym, H3; cbn [negb]; rewrite H4, H5, Nat.leb_refl, firstn_all2 by exact HL);
        apply (HM (growing_set_len (mkGrowing m cap n limit u more count))); apply Nat.leb_le; exact H3.
      all: leaf ltac:(rewrite Nat.ltb_antisym, H3; cbn [negb]; rewrite H4, H5, Nat.leb_refl, firstn_all2 by lia);
        apply (HM (growing_set_len (mkGrowing m (List.length m + k + more count) n limit u more (S count)))); apply Nat.leb_le; exact H3.
    Qed.
  End Growing.

  (** * src/buffer/data_source.rs *)

  Variable cap1 count1 : nat.
  Variable alloc1 : nat -> nat.
  Notation w_mem m := (VMem m cap1 alloc1 count1).
  Lemma text_read_new_says v : says "ReadDataSource" "new" [v] [] (Done v) (fun v => VCon "ReadDataSource" "" [v]) (fun _ => []).
  Proof. run_to idtac. Qed.
  Lemma text_iterator_new_says v : says "IteratorDataSource" "new" [v] [] (Done v) (fun v => VCon "IteratorDataSource" "" [v]) (fun _ => []).
  Proof. run_to idtac. Qed.
  Lemma text_read_source_says s m a n :
    says "ReadDataSource" "read" [VRef 0 []; VPart 1 [] a n] [VCon "ReadDataSource" "" [VObj (KSource s)]; w_mem m]
      (Done (ds_read (read_data_source (ds_read ds)) s n)) (fun r => w_io VNat (snd r))
      (fun r => [VCon "ReadDataSource" "" [VObj (KSource (fst (fst r)))]; w_mem (firstn a m ++ overwrite (snd (fst r)) (skipn a m))]).
  Proof.
    unfold read_data_source. cbn [ds_read]. destruct (ds_read ds s n) as [[s' w] [k|e]] eqn:Hr; run_to ltac:(rewrite Hr).
  Qed.

  Definition iterator_loop : expr := match text_IteratorDataSource_read with mkFn _ _ (ELet _ _ (ESeq (ELoop e) _)) => e | _ => EUnit end.
  Notation w_iterator it := (VCon "IteratorDataSource" "" [VObj (KSource it)]).
  Lemma text_iterator_loop_says a k : forall r j it m,
    k = j + r -> a + k <= List.length m ->
    let '(it', w, n) := iter_read next r it in
    wp (fun f => @loop I thing R (buffer_text verbose) (outside_stream ds next ops p) eqb conv starts acts f
                   [("n", inr 2); ("buffer", inl (VPart 1 [] a k)); ("self", inl (VRef 0 []))] iterator_loop)
       [w_iterator it; w_mem m; VNat j]
       (fun o s => o = Val VUnit /\ s = [w_iterator it'; w_mem (firstn (a + j) m ++ overwrite w (skipn (a + j) m)); VNat (j + n)]).
  Proof.
    induction r as [|r IH]; intros j it m Hk Hm; cbn [iter_read].
    - apply wp_loop. assert (H : j <? k = false) by (apply Nat.ltb_ge; lia).
      eapply wp_deep; [intros f K; destruct verbose; evaluate_buffer; rewrite H; reflexivity|]. cbv beta iota.
      rewrite Nat.add_0_r. cbn [overwrite]. rewrite firstn_skipn. split; reflexivity.
    - assert (H : j <? k = true) by (apply Nat.ltb_lt; lia). destruct (next it) as [[x|] it1] eqn:Hn.
      + specialize (IH (S j) it1 (firstn (a + j) m ++ overwrite [Some x] (skipn (a + j) m))).
        destruct (iter_read next r it1) as [[it' w] n]. apply wp_loop.
        eapply wp_deep; [intros f K; destruct verbose; evaluate_buffer; rewrite H, Hn; reflexivity|]. cbv beta iota.
        rewrite overwrite_step_length, !Nat.add_succ_r, overwrite_step, Nat.add_succ_l in IH by lia.
        replace (j + 1) with (S j) by lia. rewrite Nat.add_succ_r. apply IH; lia.
      + apply wp_loop. eapply wp_deep; [intros f K; destruct verbose; evaluate_buffer; rewrite H, Hn; reflexivity|]. cbv beta iota.
        rewrite Nat.add_0_r. cbn [overwrite]. rewrite firstn_skipn. split; reflexivity.
  Qed.
  Lemma text_iterator_source_says it m a k :
    a + k <= List.length m ->
    says "IteratorDataSource" "read" [VRef 0 []; VPart 1 [] a k] [w_iterator it; w_mem m]
      (Done (ds_read (iter_data_source next) it k)) (fun r => w_io VNat (snd r))
      (fun r => [w_iterator (fst (fst r)); w_mem (firstn a m ++ overwrite (snd (fst r)) (skipn a m))]).
  Proof.
    intros Hm. unfold iter_data_source. cbn [ds_read].
    pose proof (@text_iterator_loop_says a k k 0 it m eq_refl Hm) as HL. destruct (iter_read next k it) as [[it' w] n]. rewrite Nat.add_0_r in HL.
    eapply wp_apply; [reflexivity|reflexivity|]. apply wp_let.
    eapply wp_deep; [intros f K; evaluate_buffer; reflexivity|]. cbn [pass]. eexists _, _. split; [reflexivity|]. apply wp_seq. apply wp_eloop.
    eapply wp_conseq; [exact HL|]. intros o s [-> ->]. cbn [pass]. eapply wp_deep; [intros f K; evaluate_buffer; reflexivity|]. split; reflexivity.
  Qed.
End Buffers.
