(** The text of src/buffer/stateful.rs means what the model says: fill_buf, read and parse. *)
From Coq Require Import List Bool Arith String Lia.
From Verif Require Import Base Combinators Buffer Stream Rust RustText BufferText TextModel TextProofs TextLoop TextWp BufferTextModel BufferTextProofs
  BufferTextSource.
Import ListNotations.

Set Implicit Arguments.
Local Open Scope string_scope.
Local Open Scope list_scope.
Local Open Scope nat_scope.

Ltac evaluate_call := match goal with |- ?l = _ =>
  let l' := eval cbv -[same_nat Nat.leb Nat.ltb Nat.eqb Nat.sub Nat.max Nat.add Nat.mul firstn skipn List.length List.map nth_error overwrite expose repeat ds_read op_len op_capacity op_deref op_request_space op_consume op_fill
                       Parsers.position Parsers.position_st Parsers.string_mismatch std_position each] in l in change l with l' end.

Section Sources.
  Context {St B B0 T E I R : Type}.
  Notation thing := (stream_thing St B0 T E).
  Notation value := (value I thing).
  Variable verbose : bool.
  Variable eqb : I -> I -> bool.
  Variable ds0 ds : data_source St I.
  Variable next : St -> option I * St.
  Variable ops0 : buffer_ops I B0.
  Variable p : parser I T E.
  Variable conv : value -> value.
  Variable starts : thing.
  Variable acts : thing -> caction value value thing.
  Notation eval := (@eval I thing R (buffer_text verbose) (outside_stream ds0 next ops0 p) eqb conv starts acts).
  Notation place := (@place I thing R (buffer_text verbose) (outside_stream ds0 next ops0 p) eqb conv starts acts).
  Notation apply := (@apply I thing R (buffer_text verbose) (outside_stream ds0 next ops0 p) eqb conv starts acts).
  Notation invoke := (@invoke I thing R (buffer_text verbose) (outside_stream ds0 next ops0 p) eqb conv starts acts).
  Notation loop := (@loop I thing R (buffer_text verbose) (outside_stream ds0 next ops0 p) eqb conv starts acts).
  Notation says ty f vs s r wv ws := (wp (fun m => apply m (inl (VFn ty f)) vs) s (fits r wv ws)).

  Variable ops : buffer_ops I B.
  Variable wsrc : St -> value.
  Variable wb : B -> value.
  Variable ok : B -> Prop.
  Hypothesis HB : buffer_says (R := R) verbose eqb ds0 ds next ops0 p conv starts acts ops wsrc wb ok.
  Notation w_st st := (w_src wsrc wb st).

  Ltac leaf t := eapply wp_deep; [intros ? ?; destruct verbose; evaluate_buffer; t; reflexivity|cbv beta iota delta [pass caught st_cut st_len fits]].
  Ltac leaf_call H := eapply wp_deep; [intros ? ?; destruct verbose; evaluate_call; rewrite H; reflexivity|cbv beta iota delta [pass caught st_cut st_len fits]].
  Ltac simp := cbv beta iota delta [pass caught st_cut st_len fits].
  (** After [apply] of an end of the model: [HS] says that the model is not stuck. *)
  Ltac ended HS H := [> intros Hc; apply HS; rewrite Hc; reflexivity | rewrite H in *; cbn [run_bind pass fst snd] in * | rewrite H; reflexivity | rewrite H; reflexivity ].

  Lemma text_src_fill_buf_says st : ok (src_buffer st) -> src_fill_buf ds ops st <> Stuck ->
    says "Source" "fill_buf" [VRef 0 []] [w_st st] (src_fill_buf ds ops st) (fun x => w_io VSlice (snd x)) (fun x => [w_st (fst x)]).
  Proof.
    destruct st as [s b q fi fe fa]. intros Hok HS. eapply wp_apply; [reflexivity|reflexivity|].
    change [w_st (mkSrc s b q fi fe fa)] with (at_src wsrc wb b s q (w_state fi fe fa) []).
    apply wp_let. apply (buffer_method HB); [reflexivity|].
    eapply wp_conseq; [apply (bs_capacity HB); [exact Hok|cbn; lia]|]. intros o s1. cbn [fits]. intros [-> ->]. cbn [pass].
    eexists _, _. split; [reflexivity|]. unfold src_fill_buf, src_capacity in *. cbn [src_buffer] in *.
    apply wp_seq. apply wp_match. apply wp_method. leaf idtac. apply wp_args_cons. leaf idtac. apply wp_args_nil. cbn [pass].
    eapply self_invoke; [reflexivity|reflexivity|].
    eapply wp_fits; [apply (text_fill_requested_says HB [] (mkSrc s b q fi fe fa)); [cbn; lia|exact Hok|]| |intros [st1 r] Hx|intros Hx s'|intros Hx s'];
      [intros Hc; apply HS; rewrite Hc; reflexivity|intros Hc; apply HS; rewrite Hc; reflexivity|rewrite Hx in *; cbn [run_bind pass fst snd] in *
      |rewrite Hx; reflexivity|rewrite Hx; reflexivity].
    pose proof (fill_requested_ok HB _ (mkSrc s b q fi fe fa) Hok Hx) as Hok1. cbn [fst] in Hok1.
    destruct r as [n|e]; cbn [w_io]; (split; [reflexivity|]).
    - leaf idtac. apply wp_con. apply wp_args_cons. apply wp_method. leaf idtac. apply wp_args_nil. cbn [pass].
      eapply self_invoke; [reflexivity|reflexivity|].
      eapply wp_fits; [apply (text_src_buffer_says HB); exact Hok1| |intros l Hl|intros Hl s'|intros Hl s'];
        [intros Hc; apply HS; rewrite Hc; reflexivity|rewrite Hl in *; cbn [run_bind pass fst snd] in *|rewrite Hl; reflexivity|rewrite Hl; reflexivity].
      apply wp_args_nil. cbn [pass]. split; reflexivity.
    - leaf idtac. split; reflexivity.
  Qed.

  Lemma state_contains en b s q fi fe fa rest c g (Q : out I thing value -> list value -> Prop) :
    List.length rest <= 1 ->
    find_var en "self" = Some (inl (VRef 0 [])) ->
    (c = EFn "const" "stateful::END_OF_INPUT" /\ g = fe \/
     c = EBin OBitOr (EFn "const" "stateful::INCOMPLETE") (EFn "const" "stateful::AUTOMATIC_FILL") /\ g = fi && fa) ->
    Q (Val (VBool g)) (at_src wsrc wb b s q (w_state fi fe fa) rest) ->
    wp (fun m => eval m en (EMethod (EField (EVar "self") (Fname "state")) "contains" [c])) (at_src wsrc wb b s q (w_state fi fe fa) rest) Q.
  Proof.
    intros Hr He Hc HQ. apply wp_method.
    apply wp_ends with (o := Val (inr (0, [Fname "state"]))) (s' := at_src wsrc wb b s q (w_state fi fe fa) rest).
    { exists 2; intros m Hm K; (destruct m as [|[|m]]; [lia|lia|]); cbn [Rust.place]; rewrite He; reflexivity. }
    cbn [pass]. destruct rest as [|v [|v' rest]]; [..|cbn in Hr; lia];
    (destruct Hc as [[-> ->]|[-> ->]]; apply wp_args_cons; [leaf idtac|leaf idtac]; apply wp_args_nil; cbn [pass];
      destruct fi, fe, fa; (leaf idtac; exact HQ)).
  Qed.

  Definition parse_rest : expr := match text_Source_parse with mkFn _ _ (ESeq _ e) => e | _ => EUnit end.
  Definition src_parse_rest (st : src St B) : run (src St B * sres I T E) :=
    let! empty := src_is_empty ops st in
    if empty then Done (st, inr SEndOfInput)
    else
      let! data := op_deref ops (src_buffer st) in
      match p (mkInput (src_eoi st) data) with
      | Data remainder v =>
          let! l := op_len ops (src_buffer st) in
          let! n := usize_sub l (List.length (buf remainder)) in
          let! b := op_consume ops (src_buffer st) n in
          Done (src_with st b (src_source st), inl v)
      | Error remainder e =>
          let! l := op_len ops (src_buffer st) in
          let! n := usize_sub l (List.length remainder) in
          let! b := op_consume ops (src_buffer st) n in
          Done (src_with st b (src_source st), inr (SParseError remainder e))
      | Incomplete n =>
          let! l := op_len ops (src_buffer st) in
          let request := l + n in
          if src_eoi st then
            Done (mkSrc (src_source st) (src_buffer st) request (src_incomplete st) (src_eoi st) (src_auto st), inr (SIncomplete request))
          else
            Done (mkSrc (src_source st) (src_buffer st) request true (src_eoi st) (src_auto st), inr SRetry)
      | Panic => Panicked
      | NoFuel => Stuck
      end.

  Lemma text_parse_rest_says st : ok (src_buffer st) -> src_parse_rest st <> Stuck ->
    wp (fun m => eval m [("f", inl (VObj KParser)); ("self", inl (VRef 0 []))] parse_rest) [w_st st]
       (fun o s => fits (src_parse_rest st) (fun x => w_sres w_kvalue w_kerr (snd x)) (fun x => [w_st (fst x)]) (caught o) (st_cut s 1)).
  Proof.
    intros Hok HS. unfold src_parse_rest in *. apply wp_seq. apply wp_if. apply wp_method. leaf idtac. apply wp_args_nil. cbn [pass].
    eapply self_invoke; [reflexivity|reflexivity|].
    eapply wp_fits; [apply (text_src_is_empty_says HB); [exact Hok|]| |intros em Hx|intros Hx s'|intros Hx s'];
      [intros Hc; apply HS; rewrite Hc; reflexivity|intros Hc; apply HS; rewrite Hc; reflexivity|rewrite Hx in *; cbn [run_bind pass fst snd] in *
      |rewrite Hx; reflexivity|rewrite Hx; reflexivity].
    destruct em; [leaf idtac; split; reflexivity|]. leaf idtac. clear Hx.
    destruct st as [s b q fi fe fa]. cbn [src_buffer src_eoi src_source src_with src_request src_incomplete src_auto] in *.
    change [w_st (mkSrc s b q fi fe fa)] with (at_src wsrc wb b s q (w_state fi fe fa) []).
    apply wp_let. apply wp_if. eapply state_contains; [cbn; lia|reflexivity|left; split; reflexivity|]. cbn [pass].
    assert (HF : forall Q : out I thing value -> list value -> Prop, Q (Val (VFlags (if fe then 1 else 0))) (at_src wsrc wb b s q (w_state fi fe fa) []) ->
      if fe then wp (fun m => eval m [("f", inl (VObj KParser)); ("self", inl (VRef 0 []))] (EFn "const" "input::END_OF_INPUT")) (at_src wsrc wb b s q (w_state fi fe fa) []) Q
      else wp (fun m => eval m [("f", inl (VObj KParser)); ("self", inl (VRef 0 []))] (EFn "const" "input::DEFAULT")) (at_src wsrc wb b s q (w_state fi fe fa) []) Q).
    { intros Q HQ. destruct fe; (leaf idtac; exact HQ). }
    apply HF. clear HF. cbn [pass]. eexists _, _. split; [reflexivity|]. set (f := w_state fi fe fa).
    apply wp_match. apply wp_method. apply wp_place_call. apply wp_call. leaf idtac. apply wp_args_cons. apply wp_call. leaf idtac.
    apply wp_args_cons. leaf idtac. apply wp_args_cons. apply (@buffer_method _ _ _ _ _ _ _ _ _ _ _ _ _ _ _ _ _ _ _ _ _ HB _ b s q f []); [reflexivity|].
    eapply wp_fits; [apply (bs_deref HB); [exact Hok|cbn; lia]| |intros l Hl|intros Hl s'|intros Hl s'];
        [intros Hc; apply HS; rewrite Hc; reflexivity|rewrite Hl in *; cbn [run_bind pass fst snd] in *|rewrite Hl; reflexivity|rewrite Hl; reflexivity].
    apply wp_args_nil. cbn [pass]. leaf idtac. apply wp_args_nil. cbn [pass].
    assert (HI : mkInput fe l = mkInput (same_nat (if fe then 1 else 0) 1) l) by (destruct fe; reflexivity). rewrite HI in *.
    assert (HLen : forall (Q : out I thing value -> list value -> Prop) en, find_var en "self" = Some (inl (VRef 0 [])) -> op_len ops b <> Stuck ->
      (forall n, op_len ops b = Done n -> Q (Val (VNat n)) (at_src wsrc wb b s q f [])) ->
      (op_len ops b = Panicked -> forall s', Q Panicking s') -> (op_len ops b = Undefined -> forall s', Q Wrong s') ->
      wp (fun m => eval m en (EMethod (EField (EVar "self") (Fname "buffer")) "len" [])) (at_src wsrc wb b s q f []) Q).
    { intros Q en He HN H1 H2 H3. apply (buffer_method HB); [exact He|]. eapply wp_fits; [apply (bs_len HB); [exact Hok|cbn; lia]|exact HN|exact H1|exact H2|exact H3]. }
    destruct (p (mkInput (same_nat (if fe then 1 else 0) 1) l)) as [[le b'] t|b' e|n| |] eqn:Hp; cbn [buf] in *.
    - destruct le; (leaf_call Hp; apply wp_args_nil; cbn [pass]; leaf idtac; split; [reflexivity|]; eapply wp_arm; [reflexivity|];
        apply wp_seq; apply wp_method; apply (place_buffer HB _ b s q f []); [reflexivity|]; cbn [pass]; apply wp_args_cons; apply wp_bin; apply HLen;
        [reflexivity|intros Hc; apply HS; rewrite Hc; reflexivity|intros k Hk; rewrite Hk in *; cbn [run_bind pass] in *|intros Hk s'; rewrite Hk; reflexivity|intros Hk s'; rewrite Hk; reflexivity];
        leaf idtac; apply wp_sub; unfold usize_sub in *; (destruct (List.length b' <=? k); cbn [run_bind pass] in *; [|reflexivity]);
        apply wp_args_nil; cbn [pass];
        (eapply wp_fits; [apply (bs_consume HB _ _ _ _ []); [exact Hok|cbn; lia]| |intros b1 Hb|intros Hb s'|intros Hb s']);
        [intros Hc; apply HS; rewrite Hc; reflexivity|rewrite Hb in *; cbn [run_bind pass fst snd] in *|rewrite Hb; reflexivity|rewrite Hb; reflexivity];
        leaf idtac; split; reflexivity).
    - leaf_call Hp; apply wp_args_nil; cbn [pass]; leaf idtac; split; [reflexivity|]; apply wp_no_arm; [reflexivity|]; eapply wp_arm; [reflexivity|];
        apply wp_seq; apply wp_method; apply (place_buffer HB _ b s q f []); [reflexivity|]; cbn [pass]; apply wp_args_cons; apply wp_bin; apply HLen;
        [reflexivity|intros Hc; apply HS; rewrite Hc; reflexivity|intros k Hk; rewrite Hk in *; cbn [run_bind pass] in *|intros Hk s'; rewrite Hk; reflexivity|intros Hk s'; rewrite Hk; reflexivity];
        leaf idtac; apply wp_sub; unfold usize_sub in *; (destruct (List.length b' <=? k); cbn [run_bind pass] in *; [|reflexivity]);
        apply wp_args_nil; cbn [pass];
        (eapply wp_fits; [apply (bs_consume HB _ _ _ _ []); [exact Hok|cbn; lia]| |intros b1 Hb|intros Hb s'|intros Hb s']);
        [intros Hc; apply HS; rewrite Hc; reflexivity|rewrite Hb in *; cbn [run_bind pass fst snd] in *|rewrite Hb; reflexivity|rewrite Hb; reflexivity];
        leaf idtac; split; reflexivity.
    - leaf_call Hp; apply wp_args_nil; cbn [pass]; leaf idtac; split; [reflexivity|]; apply wp_no_arm; [reflexivity|]; apply wp_no_arm; [reflexivity|];
        eapply wp_arm; [reflexivity|]; apply wp_seq; apply wp_set; apply wp_bin; apply HLen;
        [reflexivity|intros Hc; apply HS; rewrite Hc; reflexivity|intros k Hk; rewrite Hk in *; cbn [run_bind pass] in *|intros Hk s'; rewrite Hk; reflexivity|intros Hk s'; rewrite Hk; reflexivity];
        leaf idtac; leaf idtac; leaf idtac; leaf idtac; apply wp_if; eapply (@state_contains _ b s (k + n) fi fe fa []);
        [cbn; lia|reflexivity|left; split; reflexivity|]; cbn [pass]; destruct fe; [leaf idtac; split; reflexivity|].
      destruct fi, fa; (leaf idtac; split; reflexivity).
    - leaf_call Hp. reflexivity.
    - destruct (HS eq_refl).
  Qed.

  Lemma src_fill_ok st x : ok (src_buffer st) -> src_fill ds ops st = Done x -> ok (src_buffer (fst x)).
  Proof.
    intros Hok. unfold src_fill. destruct (fill_requested ds ops (Nat.max 1 (src_request st)) st) as [[st1 r]| | |] eqn:Hx; cbn [run_bind]; try discriminate.
    pose proof (fill_requested_ok HB _ _ Hok Hx) as Hok1. cbn [fst] in Hok1. destruct r as [n|e]; [|intros [= <-]; exact Hok1].
    destruct (op_len ops (src_buffer st1)); cbn [run_bind]; try discriminate. intros [= <-]. exact Hok1.
  Qed.

  Lemma text_src_parse_says st : ok (src_buffer st) -> src_parse ds ops p st <> Stuck ->
    says "Source" "parse" [VRef 0 []; VObj KParser] [w_st st] (src_parse ds ops p st)
      (fun x => w_sres w_kvalue w_kerr (snd x)) (fun x => [w_st (fst x)]).
  Proof.
    intros Hok HS. change (src_parse ds ops p st) with
      (let! (st, filled) := (if src_incomplete st && src_auto st then src_fill ds ops st else Done (st, IoOk 0)) in
       match filled with IoErr e => Done (st, inr (SIoError e)) | IoOk _ => src_parse_rest st end) in *.
    eapply wp_apply; [reflexivity|reflexivity|]. apply wp_seq. apply wp_if.
    destruct st as [s b q fi fe fa]. cbn [src_incomplete src_auto] in *.
    eapply (@state_contains _ b s q fi fe fa []); [cbn; lia|reflexivity|right; split; reflexivity|]. cbn [pass].
    destruct (fi && fa); cbn [run_bind] in *.
    - apply wp_seq. apply wp_match. apply wp_method. apply wp_place_method. apply wp_method. leaf idtac. apply wp_args_nil. cbn [pass].
      eapply self_invoke; [reflexivity|reflexivity|].
      eapply wp_fits; [apply (text_src_fill_says HB (mkSrc s b q fi fe fa)); [exact Hok|]| |intros [st1 r] Hx|intros Hx s'|intros Hx s'];
        [intros Hc; apply HS; rewrite Hc; reflexivity|intros Hc; apply HS; rewrite Hc; reflexivity|rewrite Hx in *; cbn [run_bind pass fst snd] in *
        |rewrite Hx; reflexivity|rewrite Hx; reflexivity].
      pose proof (src_fill_ok (mkSrc s b q fi fe fa) Hok Hx) as Hok1. cbn [fst] in Hok1.
      destruct r as [n|e]; cbn [w_io pass]; apply wp_args_cons; leaf idtac; apply wp_args_nil; cbn [pass]; leaf idtac; (split; [reflexivity|]).
      + leaf idtac. leaf idtac. exact (text_parse_rest_says st1 Hok1 HS).
      + leaf idtac. split; reflexivity.
    - leaf idtac. exact (text_parse_rest_says (mkSrc s b q fi fe fa) Hok HS).
  Qed.
End Sources.
