(** The text of src/buffer/stateful.rs means what the model says. *)
From Coq Require Import List Bool Arith String Lia.
From Verif Require Import Base Combinators Buffer Stream Rust RustText BufferText TextModel TextProofs TextLoop TextWp BufferTextModel BufferTextProofs.
Import ListNotations.

Set Implicit Arguments.
Local Open Scope string_scope.
Local Open Scope list_scope.
Local Open Scope nat_scope.

Section Sources.
  Context {St B B0 T E I R : Type}.
  Notation thing := (stream_thing St B0 T E).
  Notation value := (value I thing).
  Variable verbose : bool.
  Variable eqb : I -> I -> bool.
  (** [ds0] is the data source given from outside, [ds] the one in the Source, written by [wsrc]. *)
  Variable ds0 ds : data_source St I.
  Variable next : St -> option I * St.
  Variable ops0 : buffer_ops I B0.
  Variable p : parser I T E.
  Variable conv : value -> value.
  Variable starts : thing.
  Variable acts : thing -> caction value value thing.
  Notation eval := (@eval I thing R (buffer_text verbose) (outside_stream ds0 next ops0 p) eqb conv starts acts).
  Notation place := (@place I thing R (buffer_text verbose) (outside_stream ds0 next ops0 p) eqb conv starts acts).
  Notation apply := (@apply I thing R (buffer_text verbose) (outside_stream ds0 next ops0 p) eqb conv starts acts).
  Notation invoke := (@invoke I thing R (buffer_text verbose) (outside_stream ds0 next ops0 p) eqb conv starts acts).
  Notation loop := (@loop I thing R (buffer_text verbose) (outside_stream ds0 next ops0 p) eqb conv starts acts).
  Notation says ty f vs s r wv ws := (wp (fun m => apply m (inl (VFn ty f)) vs) s (fits r wv ws)).

  (** The buffer in a Source, written by [wb]; [ok] is an invariant of it. *)
  Variable ops : buffer_ops I B.
  Variable wsrc : St -> value.
  Variable wb : B -> value.
  Variable ok : B -> Prop.

  Definition at_src (b : B) (s : St) (q f : nat) (rest : list value) : list value :=
    VRec "Source" [("source", wsrc s); ("buffer", wb b); ("request", VNat q); ("state", VFlags f)] :: rest.

  Record buffer_says : Prop := mkBufferSays {
    bs_source : forall s, (exists o, wsrc s = VObj o) \/ (exists ty c vs, wsrc s = VCon ty c vs);
    bs_shape : forall b, (exists o, wb b = VObj o) \/ (exists ty fs, wb b = VRec ty fs);
    bs_len : forall b s q f rest, ok b -> List.length rest <= 3 ->
      wp (fun m => invoke m (inr (0, [Fname "buffer"])) "len" []) (at_src b s q f rest) (fits (op_len ops b) VNat (fun _ => at_src b s q f rest));
    bs_capacity : forall b s q f rest, ok b -> List.length rest <= 3 ->
      wp (fun m => invoke m (inr (0, [Fname "buffer"])) "capacity" []) (at_src b s q f rest)
         (fits (Done (op_capacity ops b)) VNat (fun _ => at_src b s q f rest));
    bs_deref : forall b s q f rest, ok b -> List.length rest <= 3 ->
      wp (fun m => invoke m (inr (0, [Fname "buffer"])) "deref" []) (at_src b s q f rest) (fits (op_deref ops b) VSlice (fun _ => at_src b s q f rest));
    bs_request : forall b s q f rest k, ok b -> List.length rest <= 3 ->
      wp (fun m => invoke m (inr (0, [Fname "buffer"])) "request_space" [VNat k]) (at_src b s q f rest)
         (fits (op_request_space ops b k) (fun _ => VUnit) (fun b => at_src b s q f rest));
    bs_consume : forall b s q f rest k, ok b -> List.length rest <= 3 ->
      wp (fun m => invoke m (inr (0, [Fname "buffer"])) "consume" [VNat k]) (at_src b s q f rest)
         (fits (op_consume ops b k) (fun _ => VUnit) (fun b => at_src b s q f rest));
    bs_fill : forall b s q f rest, ok b -> List.length rest <= 3 ->
      wp (fun m => invoke m (inr (0, [Fname "buffer"])) "fill" [VRef 0 [Fname "source"]]) (at_src b s q f rest)
         (fits (op_fill ops ds b s) (fun x => w_io VNat (snd x)) (fun x => at_src (fst (fst x)) (snd (fst x)) q f rest));
    bs_ok_request : forall b k b', ok b -> op_request_space ops b k = Done b' -> ok b';
    bs_ok_consume : forall b k b', ok b -> op_consume ops b k = Done b' -> ok b';
    bs_ok_fill : forall b s x, ok b -> op_fill ops ds b s = Done x -> ok (fst (fst x)) }.

  Hypothesis HB : buffer_says.

  Ltac leaf t := eapply wp_deep; [intros ? ?; destruct verbose; evaluate_buffer; t; reflexivity|cbv beta iota delta [pass caught st_cut st_len firstn List.length fits]].
  Ltac simp := cbv beta iota delta [pass caught st_cut st_len firstn List.length fits].

  (** [self.buffer] *)
  Lemma place_buffer en b s q f rest (Q : out I thing spot -> list value -> Prop) :
    find_var en "self" = Some (inl (VRef 0 [])) ->
    Q (Val (inr (0, [Fname "buffer"]))) (at_src b s q f rest) ->
    wp (fun m => place m en (EField (EVar "self") (Fname "buffer"))) (at_src b s q f rest) Q.
  Proof.
    intros He HQ. destruct (bs_shape HB b) as [[o Ho]|(ty & fs & Ho)];
      (apply wp_ends with (o := Val (inr (0, [Fname "buffer"]))) (s' := at_src b s q f rest); [|exact HQ]);
      exists 2; intros m Hm K; (destruct m as [|[|m]]; [lia|lia|]); cbn [Rust.place]; rewrite He; unfold at_src; rewrite Ho; reflexivity.
  Qed.

  (** A method of [self.buffer] without arguments. *)
  Lemma buffer_method en b s q f rest m (Q : out I thing value -> list value -> Prop) :
    find_var en "self" = Some (inl (VRef 0 [])) ->
    wp (fun n => invoke n (inr (0, [Fname "buffer"])) m []) (at_src b s q f rest) Q ->
    wp (fun n => eval n en (EMethod (EField (EVar "self") (Fname "buffer")) m [])) (at_src b s q f rest) Q.
  Proof. intros He HQ. apply wp_method. apply place_buffer; [exact He|]. cbn [pass]. apply wp_args_nil. exact HQ. Qed.

  Lemma self_invoke f vs v s (Q : out I thing value -> list value -> Prop) ps e fs :
    v = VRec "Source" fs -> find_fn (buffer_text verbose) "Source" f = Some (mkFn true ps e) ->
    wp (fun m => apply m (inl (VFn "Source" f)) (VRef 0 [] :: vs)) (v :: s) Q -> wp (fun m => invoke m (inr (0, [])) f vs) (v :: s) Q.
  Proof.
    intros -> Hf HQ. eapply wp_invoke_apply; [reflexivity|reflexivity|exact Hf|exact HQ].
  Qed.

  (** * fill_requested *)

  Definition fill_loop_text : expr :=
    match text_Source_fill_requested with
    | mkFn _ _ (ELet _ _ (ELet _ _ (ELet _ _ (ESeq (EIf _ (ELet _ _ (ESeq _ (ELoop e))) _) _)))) => e
    | _ => EUnit
    end.
  Definition loop_env (j request diff : nat) : list (string * (value + nat)) :=
    [("diff", inl (VNat diff)); ("source", inl (VRef 0 [Fname "source"])); ("buffer", inr (S j)); ("read", inr j);
     ("request", inl (VNat request)); ("self", inl (VRef 0 []))].
  Definition loop_end (pre : list value) (q f : nat) (r : run (B * St * io nat)) (o : out I thing value) (st : list value) : Prop :=
    match r with
    | Done (b, s, IoOk n) => o = Val VUnit /\ st = at_src b s q f (pre ++ [VNat n; VRef 0 [Fname "buffer"]])
    | Done (b, s, IoErr e) =>
        o = Return (w_io VNat (IoErr e)) /\ exists n, st = at_src b s q f (pre ++ [VNat n; VRef 0 [Fname "buffer"]])
    | Panicked => o = Panicking
    | Undefined => o = Wrong
    | Stuck => True
    end.

  Lemma text_fill_loop_says pre q f request diff : List.length pre <= 1 -> forall g read b s,
    ok b -> fill_loop ds ops g request read b s <> Stuck ->
    wp (fun m => loop m (loop_env (S (List.length pre)) request diff) fill_loop_text)
       (at_src b s q f (pre ++ [VNat read; VRef 0 [Fname "buffer"]])) (loop_end pre q f (fill_loop ds ops g request read b s)).
  Proof.
    intros Hpre. induction g as [|g IH]; intros read b s Hok HS; [destruct (HS eq_refl)|]. cbn [fill_loop] in *.
    assert (Hlen : List.length (pre ++ [VNat read; VRef 0 [Fname "buffer"]]) <= 3) by (rewrite app_length; cbn [List.length]; lia).
    apply wp_loop. unfold fill_loop_text. cbn beta iota delta [text_Source_fill_requested].
    apply wp_if. apply wp_bin. apply wp_method.
    destruct pre as [|v [|v' pre]]; [..|cbn in Hpre; lia]; cbn [List.length app] in *.
    all: leaf idtac; apply wp_args_nil; cbn [pass]; (eapply wp_fits; [apply (bs_len HB); assumption| |intros l Hl|intros Hl s'|intros Hl s']);
         [intros Hc; apply HS; rewrite Hc; reflexivity|rewrite Hl in *; cbn [run_bind pass] in *|rewrite Hl; reflexivity|rewrite Hl; reflexivity].
    all: leaf idtac; leaf idtac; destruct (l <? request); [|leaf idtac; split; reflexivity].
    all: apply wp_match; apply wp_match; apply wp_method; leaf idtac; apply wp_args_cons; leaf idtac; apply wp_args_nil; cbn [pass].
    all: (eapply wp_fits; [apply (bs_fill HB); assumption| |intros [[b1 s1] r] Hx|intros Hx s'|intros Hx s']);
         [intros Hc; apply HS; rewrite Hc; reflexivity|rewrite Hx in *; cbn [run_bind pass fst snd] in *|rewrite Hx; reflexivity|rewrite Hx; reflexivity].
    all: pose proof (bs_ok_fill HB s Hok Hx) as Hok1; cbn [fst] in Hok1.
    all: destruct r as [[|n]|e]; cbn [w_io]; (split; [reflexivity|]).
    all: leaf idtac.
    3,6: split; [reflexivity|eexists; reflexivity].
    all: split; [reflexivity|].
    1,3: leaf idtac; split; reflexivity.
    all: leaf idtac; exact (IH _ _ _ Hok1 HS).
  Qed.

  Notation w_st st := (w_src wsrc wb st).
  Lemma addr_buffer en b s q f rest (Q : out I thing value -> list value -> Prop) :
    find_var en "self" = Some (inl (VRef 0 [])) ->
    Q (Val (VRef 0 [Fname "buffer"])) (at_src b s q f rest) ->
    wp (fun m => eval m en (EAddr true (EField (EVar "self") (Fname "buffer")))) (at_src b s q f rest) Q.
  Proof.
    intros He HQ. destruct (bs_shape HB b) as [[o Ho]|(ty & fs & Ho)];
      (apply wp_ends with (o := Val (VRef 0 [Fname "buffer"])) (s' := at_src b s q f rest); [|exact HQ]);
      exists 3; intros m Hm K; (destruct m as [|[|[|m]]]; [lia|lia|lia|]); cbn [Rust.eval Rust.place]; rewrite He; unfold at_src; rewrite Ho; reflexivity.
  Qed.

  Lemma addr_source en b s q f rest (Q : out I thing value -> list value -> Prop) :
    find_var en "self" = Some (inl (VRef 0 [])) ->
    Q (Val (VRef 0 [Fname "source"])) (at_src b s q f rest) ->
    wp (fun m => eval m en (EAddr true (EField (EVar "self") (Fname "source")))) (at_src b s q f rest) Q.
  Proof.
    intros He HQ. destruct (bs_source HB s) as [[o Ho]|(ty & c & vs & Ho)];
      (apply wp_ends with (o := Val (VRef 0 [Fname "source"])) (s' := at_src b s q f rest); [|exact HQ]);
      exists 3; intros m Hm K; (destruct m as [|[|[|m]]]; [lia|lia|lia|]); cbn [Rust.eval Rust.place]; rewrite He; unfold at_src; rewrite Ho; reflexivity.
  Qed.

  Lemma text_fill_requested_says pre st request :
    List.length pre <= 1 -> ok (src_buffer st) -> fill_requested ds ops request st <> Stuck ->
    says "Source" "fill_requested" [VRef 0 []; VNat request] (w_st st :: pre) (fill_requested ds ops request st)
      (fun x => w_io VNat (snd x)) (fun x => w_st (fst x) :: pre).
  Proof.
    destruct st as [s b q fi fe fa]. cbn [src_buffer]. intros Hpre Hok HS.
    change (w_st (mkSrc s b q fi fe fa) :: pre) with (at_src b s q (w_state fi fe fa) pre).
    unfold fill_requested in *. cbn [src_buffer src_source src_with src_request src_incomplete src_eoi src_auto] in *.
    eapply wp_apply; [reflexivity|reflexivity|].
    pose proof (fun g => @text_fill_loop_says pre q (w_state fi fe fa) request g Hpre) as HLoop.
    destruct pre as [|v [|v' pre]]; [..|cbn in Hpre; lia]; cbn [List.length app] in *.
    all: apply wp_let; leaf idtac; eexists _, _; (split; [reflexivity|]).
    all: apply wp_let; apply addr_buffer; [reflexivity|]; eexists _, _; (split; [reflexivity|]).
    all: apply wp_let; apply (@addr_source _ b s q (w_state fi fe fa) [VNat 0; VRef 0 [Fname "buffer"]]) || apply (@addr_source _ b s q (w_state fi fe fa) [v; VNat 0; VRef 0 [Fname "buffer"]]);
         [reflexivity|]; eexists _, _; (split; [reflexivity|]).
    all: apply wp_seq; apply wp_if; apply wp_bin; apply wp_method; leaf idtac; apply wp_args_nil; cbn [pass].
    all: (eapply wp_fits; [apply (bs_len HB); [assumption|cbn; lia]| |intros l Hl|intros Hl s'|intros Hl s']);
         [intros Hc; apply HS; rewrite Hc; reflexivity|rewrite Hl in *; cbn [run_bind pass] in *|rewrite Hl; reflexivity|rewrite Hl; reflexivity].
    all: leaf idtac; leaf idtac; destruct (l <? request) eqn:H1; [|leaf idtac; leaf idtac; split; reflexivity].
    all: apply wp_let; apply wp_bin; leaf idtac; apply wp_method; leaf idtac; apply wp_args_nil; cbn [pass].
    all: (eapply wp_fits; [apply (bs_len HB); [assumption|cbn; lia]| |intros l' Hl'|intros Hl' s'|intros Hl' s']); try congruence;
         rewrite Hl in Hl'; injection Hl' as <-; cbn [pass]; apply wp_sub; unfold usize_sub in *;
         replace (l <=? request) with true in * by (symmetry; apply Nat.leb_le; apply Nat.ltb_lt in H1; lia); cbn [pass run_bind] in *.
    all: eexists _, _; (split; [reflexivity|]); apply wp_seq; apply wp_method; leaf idtac; apply wp_args_cons; leaf idtac; apply wp_args_nil; cbn [pass].
    all: (eapply wp_fits; [apply (bs_request HB); [assumption|cbn; lia]| |intros b1 Hb|intros Hb s'|intros Hb s']);
         [intros Hc; apply HS; rewrite Hc; reflexivity|rewrite Hb in *; cbn [run_bind pass] in *|rewrite Hb; reflexivity|rewrite Hb; reflexivity].
    all: pose proof (bs_ok_request HB _ Hok Hb) as Hok1; apply wp_eloop.
    all: (eapply wp_conseq; [eapply (HLoop (request - l) (S (request - l)) 0 b1 s Hok1); intros Hc; apply HS; rewrite Hc; reflexivity|]).
    all: intros o s'; destruct (fill_loop ds ops (S (request - l)) request 0 b1 s) as [[[b2 s2] [n|e]]| | |]; unfold loop_end.
    all: try (intros [-> ->]; simp; leaf idtac; split; reflexivity).
    all: try (intros [-> [n ->]]; split; reflexivity).
    all: try (intros ->; reflexivity).
    all: destruct (HS eq_refl).
  Qed.

  Lemma fill_loop_ok : forall g request read b s x, ok b -> fill_loop ds ops g request read b s = Done x -> ok (fst (fst x)).
  Proof.
    induction g as [|g IH]; intros request read b s x Hok; cbn [fill_loop]; [discriminate|].
    destruct (op_len ops b) as [l| | |]; cbn [run_bind]; try discriminate.
    destruct (l <? request); [|intros [= <-]; exact Hok].
    destruct (op_fill ops ds b s) as [[[b1 s1] r]| | |] eqn:Hx; cbn [run_bind]; try discriminate.
    pose proof (bs_ok_fill HB s Hok Hx) as Hok1. cbn [fst] in Hok1.
    destruct r as [[|n]|e]; [intros [= <-]; exact Hok1|apply IH; exact Hok1|intros [= <-]; exact Hok1].
  Qed.
  Lemma fill_requested_ok request st x : ok (src_buffer st) -> fill_requested ds ops request st = Done x -> ok (src_buffer (fst x)).
  Proof.
    intros Hok. unfold fill_requested. destruct (op_len ops (src_buffer st)) as [l| | |]; cbn [run_bind]; try discriminate.
    destruct (l <? request); [|intros [= <-]; exact Hok].
    destruct (usize_sub request l) as [d| | |]; cbn [run_bind]; try discriminate.
    destruct (op_request_space ops (src_buffer st) d) as [b| | |] eqn:Hb; cbn [run_bind]; try discriminate.
    destruct (fill_loop ds ops (S d) request 0 b (src_source st)) as [[[b1 s1] r]| | |] eqn:Hx; cbn [run_bind]; try discriminate.
    intros [= <-]. exact (fill_loop_ok _ _ _ _ (bs_ok_request HB _ Hok Hb) Hx).
  Qed.

  (** * The other methods *)

  Lemma text_src_len_says pre st : List.length pre <= 1 -> ok (src_buffer st) ->
    says "Source" "len" [VRef 0 []] (w_st st :: pre) (src_len ops st) VNat (fun _ => w_st st :: pre).
  Proof.
    destruct st as [s b q fi fe fa]. cbn [src_buffer]. intros Hpre Hok.
    change (w_st (mkSrc s b q fi fe fa) :: pre) with (at_src b s q (w_state fi fe fa) pre). unfold src_len. cbn [src_buffer].
    eapply wp_apply; [reflexivity|reflexivity|]. apply buffer_method; [reflexivity|].
    eapply wp_conseq; [apply (bs_len HB); [assumption|lia]|]. intros o s'.
    destruct (op_len ops b); cbn [fits]; [|intros ->; reflexivity|intros ->; reflexivity|exact (fun H => H)].
    intros [-> ->]. split; [reflexivity|]. destruct pre as [|v [|v' pre]]; [reflexivity|reflexivity|cbn in Hpre; lia].
  Qed.
  Lemma text_src_capacity_says st : ok (src_buffer st) ->
    says "Source" "capacity" [VRef 0 []] [w_st st] (Done (src_capacity ops st)) VNat (fun _ => [w_st st]).
  Proof.
    destruct st as [s b q fi fe fa]. cbn [src_buffer]. intros Hok.
    change [w_st (mkSrc s b q fi fe fa)] with (at_src b s q (w_state fi fe fa) []). unfold src_capacity. cbn [src_buffer].
    eapply wp_apply; [reflexivity|reflexivity|]. apply buffer_method; [reflexivity|].
    eapply wp_conseq; [apply (bs_capacity HB); [assumption|cbn; lia]|]. intros o s'. cbn [fits]. intros [-> ->]. split; reflexivity.
  Qed.
  Lemma text_src_buffer_says st : ok (src_buffer st) ->
    says "Source" "buffer" [VRef 0 []] [w_st st] (src_view ops st) VSlice (fun _ => [w_st st]).
  Proof.
    destruct st as [s b q fi fe fa]. cbn [src_buffer]. intros Hok.
    change [w_st (mkSrc s b q fi fe fa)] with (at_src b s q (w_state fi fe fa) []). unfold src_view. cbn [src_buffer].
    eapply wp_apply; [reflexivity|reflexivity|]. apply buffer_method; [reflexivity|].
    eapply wp_conseq; [apply (bs_deref HB); [assumption|cbn; lia]|]. intros o s'.
    destruct (op_deref ops b); cbn [fits]; [|intros ->; reflexivity|intros ->; reflexivity|exact (fun H => H)].
    intros [-> ->]. split; reflexivity.
  Qed.
  Lemma text_src_consume_says st n : ok (src_buffer st) ->
    says "Source" "consume" [VRef 0 []; VNat n] [w_st st] (src_consume ops n st) (fun _ => VUnit) (fun st => [w_st st]).
  Proof.
    destruct st as [s b q fi fe fa]. cbn [src_buffer]. intros Hok.
    change [w_st (mkSrc s b q fi fe fa)] with (at_src b s q (w_state fi fe fa) []). unfold src_consume. cbn [src_buffer].
    eapply wp_apply; [reflexivity|reflexivity|]. apply wp_method. apply place_buffer; [reflexivity|]. cbn [pass].
    apply wp_args_cons. leaf idtac. apply wp_args_nil. cbn [pass].
    eapply wp_conseq; [apply (bs_consume HB); [assumption|cbn; lia]|]. intros o s'.
    destruct (op_consume ops b n); cbn [fits run_bind]; [|intros ->; reflexivity|intros ->; reflexivity|exact (fun H => H)].
    intros [-> ->]. split; reflexivity.
  Qed.
  Lemma text_src_reset_says st : says "Source" "reset" [VRef 0 []] [w_st st] (Done (src_reset st)) (fun _ => VUnit) (fun st => [w_st st]).
  Proof.
    destruct st as [s b q fi fe fa]. change [w_st (mkSrc s b q fi fe fa)] with (at_src b s q (w_state fi fe fa) []).
    eapply wp_apply; [reflexivity|reflexivity|]. leaf idtac. split; reflexivity.
  Qed.
  Lemma text_src_set_autofill_says st v :
    says "Source" "set_autofill" [VRef 0 []; VBool v] [w_st st] (Done (src_set_autofill v st)) (fun _ => VUnit) (fun st => [w_st st]).
  Proof.
    destruct st as [s b q fi fe fa]. change [w_st (mkSrc s b q fi fe fa)] with (at_src b s q (w_state fi fe fa) []).
    eapply wp_apply; [reflexivity|reflexivity|]. destruct v, fi, fe, fa; (leaf idtac; split; reflexivity).
  Qed.
  Lemma text_src_with_buffer_says s b :
    says "Source" "with_buffer" [wsrc s; wb b] [] (Done (src_with_buffer s b)) (fun st => w_st st) (fun _ => []).
  Proof. eapply wp_apply; [reflexivity|reflexivity|]. leaf idtac. split; reflexivity. Qed.
  Lemma text_src_is_empty_says st : ok (src_buffer st) -> src_is_empty ops st <> Stuck ->
    says "Source" "is_empty" [VRef 0 []] [w_st st] (src_is_empty ops st) VBool (fun _ => [w_st st]).
  Proof.
    intros Hok HS. pose proof (@text_src_len_says [] st ltac:(cbn; lia) Hok) as HL. unfold src_is_empty, src_len in *.
    destruct st as [s b q fi fe fa]. cbn [src_buffer src_eoi] in *.
    change [w_st (mkSrc s b q fi fe fa)] with (at_src b s q (w_state fi fe fa) []) in *.
    eapply wp_apply; [reflexivity|reflexivity|]. apply wp_and. destruct fe; [|destruct fi, fa; (leaf idtac; split; reflexivity)].
    assert (HE : wp (fun m => eval m [("self", inl (VRef 0 []))] (EBin OEq (EMethod (EVar "self") "len" []) (ENat 0)))
                    (at_src b s q (w_state fi true fa) [])
                    (fun o s' => fits (let! l := op_len ops b in Done (l =? 0)) VBool (fun _ => at_src b s q (w_state fi true fa) []) (caught o) (st_cut s' 1))).
    { apply wp_bin. apply wp_method. leaf idtac. apply wp_args_nil. cbn [pass]. eapply self_invoke; [reflexivity|reflexivity|].
      eapply wp_fits; [exact HL| |intros l Hl|intros Hl s'|intros Hl s'];
         [intros Hc; apply HS; rewrite Hc; reflexivity|rewrite Hl in *; cbn [run_bind pass] in *|rewrite Hl; reflexivity|rewrite Hl; reflexivity].
      leaf idtac. leaf idtac. split; reflexivity. }
    destruct fi, fa; (leaf idtac; exact HE).
  Qed.
  Lemma text_src_fill_says st : ok (src_buffer st) -> src_fill ds ops st <> Stuck ->
    says "Source" "fill" [VRef 0 []] [w_st st] (src_fill ds ops st) (fun x => w_io VNat (snd x)) (fun x => [w_st (fst x)]).
  Proof.
    destruct st as [s0 b0 q0 fi0 fe0 fa0]. intros Hok HS. eapply wp_apply; [reflexivity|reflexivity|]. apply wp_let. leaf idtac. eexists _, _. split; [reflexivity|].
    apply wp_method. apply wp_place_method. apply wp_method. leaf idtac. apply wp_args_cons. leaf idtac. apply wp_args_nil. cbn [pass].
    eapply self_invoke; [reflexivity|reflexivity|]. unfold src_fill in *. cbn [src_request] in *.
    eapply wp_fits; [apply (@text_fill_requested_says [] (mkSrc s0 b0 q0 fi0 fe0 fa0)); [cbn; lia|exact Hok|]| |intros [st1 r] Hx|intros Hx s'|intros Hx s'];
      [intros Hc; apply HS; rewrite Hc; reflexivity|intros Hc; apply HS; rewrite Hc; reflexivity|rewrite Hx in *; cbn [run_bind pass fst snd] in *
      |rewrite Hx; reflexivity|rewrite Hx; reflexivity].
    pose proof (@fill_requested_ok _ _ _ Hok Hx) as Hok1. cbn [fst] in Hok1. destruct st1 as [s b q fi fe fa]. cbn [src_buffer] in *.
    destruct r as [n|e]; cbn [w_io pass]; apply wp_args_cons; leaf idtac; apply wp_args_nil; cbn [pass].
    - apply wp_map_ok; [destruct verbose; reflexivity|discriminate|]. eapply wp_apply_closure; [reflexivity|].
      change [w_st (mkSrc s b q fi fe fa)] with (at_src b s q (w_state fi fe fa) []).
      apply wp_seq. destruct fi, fe, fa; leaf idtac.
      all: apply wp_seq; apply wp_if; apply wp_bin.
      all: match goal with |- wp _ (VRec _ [_; _; _; (_, VFlags ?f)] :: _) _ => apply (@buffer_method _ b s q f []); [reflexivity|] end.
      all: (eapply wp_fits; [apply (bs_len HB); [assumption|cbn; lia]| |intros l Hl|intros Hl s'|intros Hl s']);
         [intros Hc; apply HS; rewrite Hc; reflexivity|rewrite Hl in *; cbn [run_bind pass] in *|rewrite Hl; reflexivity|rewrite Hl; reflexivity].
      all: leaf idtac; leaf idtac; destruct (Nat.max 1 q0 <=? l); (leaf idtac; leaf idtac; split; reflexivity).
    - leaf idtac. split; reflexivity.
  Qed.
End Sources.
