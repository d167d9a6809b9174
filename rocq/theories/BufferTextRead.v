(** The text of src/buffer/stateful.rs means what the model says: [io::Read::read]. *)
From Coq Require Import List Bool Arith String Lia.
From Verif Require Import Base Combinators Buffer Stream Rust RustText BufferText TextModel TextProofs TextLoop TextWp BufferTextModel BufferTextProofs
  BufferTextSource BufferTextParse.
Import ListNotations.

Set Implicit Arguments.
Local Open Scope string_scope.
Local Open Scope list_scope.
Local Open Scope nat_scope.

Section Sources.
  Context {St B B0 T E I R : Type}.
  Notation thing := (stream_thing St B0 T E).
  Notation value := (value I thing).
  Variable verbose : bool.
  Variable eqb : I -> I -> bool.
  Variable ds0 ds : data_source St I.
  Variable next : St -> option I * St.
  Variable ops0 : buffer_ops I B0.
  Variable p : parser I T E.
  Variable conv : value -> value.
  Variable starts : thing.
  Variable acts : thing -> caction value value thing.
  Notation eval := (@eval I thing R (buffer_text verbose) (outside_stream ds0 next ops0 p) eqb conv starts acts).
  Notation place := (@place I thing R (buffer_text verbose) (outside_stream ds0 next ops0 p) eqb conv starts acts).
  Notation apply := (@apply I thing R (buffer_text verbose) (outside_stream ds0 next ops0 p) eqb conv starts acts).
  Notation invoke := (@invoke I thing R (buffer_text verbose) (outside_stream ds0 next ops0 p) eqb conv starts acts).
  Notation loop := (@loop I thing R (buffer_text verbose) (outside_stream ds0 next ops0 p) eqb conv starts acts).
  Notation says ty f vs s r wv ws := (wp (fun m => apply m (inl (VFn ty f)) vs) s (fits r wv ws)).

  Variable ops : buffer_ops I B.
  Variable wsrc : St -> value.
  Variable wb : B -> value.
  Variable ok : B -> Prop.
  Hypothesis HB : buffer_says (R := R) verbose eqb ds0 ds next ops0 p conv starts acts ops wsrc wb ok.
  Notation w_st st := (w_src wsrc wb st).

  Ltac leaf t := eapply wp_deep; [intros ? ?; destruct verbose; evaluate_buffer; t; reflexivity|cbv beta iota delta [pass caught st_cut st_len fits]].
  Ltac simp := cbv beta iota delta [pass caught st_cut st_len fits].
  (** After [apply] of an end of the model: [HS] says that the model is not stuck. *)
  Ltac ended HS H := [> intros Hc; apply HS; rewrite Hc; reflexivity | rewrite H in *; cbn [run_bind pass fst snd] in * | rewrite H; reflexivity | rewrite H; reflexivity ].


  Lemma place_slice en b s q f rest (Q : out I thing spot -> list value -> Prop) :
    find_var en "self" = Some (inl (VRef 0 [])) ->
    wp (fun m => invoke m (inr (0, [Fname "buffer"])) "deref" []) (at_src wsrc wb b s q f rest)
       (pass Q (fun v s1 => match v with VSlice l => Q (Val (inl (VSlice l))) s1 | _ => False end)) ->
    wp (fun m => place m en (EAddr false (ESlice (EField (EVar "self") (Fname "buffer")) None None))) (at_src wsrc wb b s q f rest) Q.
  Proof.
    intros He HQ. apply wp_up with (h := fun m => place m en (ESlice (EField (EVar "self") (Fname "buffer")) None None)); [reflexivity|].
    apply wp_up with (h := fun m => and_then (eval m en (ESlice (EField (EVar "self") (Fname "buffer")) None None)) (fun v => spot_of (inl v))); [reflexivity|].
    apply wp_bind.
    eapply wp_up with (h := fun m => and_then (place m en (EField (EVar "self") (Fname "buffer"))) (fun r => and_then (look r) (fun v =>
      match v with
      | VSlice l => part l None None
      | VMem mm _ _ _ => part_of mm None None
      | VObj _ => and_then (invoke m r "deref" []) (fun w => match w with VSlice l => part l None None | _ => stop Wrong end)
      | VRec _ _ => and_then (invoke m r "deref" []) (fun w => match w with VSlice l => part l None None | _ => stop Wrong end)
      | _ => stop Wrong
      end))).
    { intros m K. reflexivity. }
    apply wp_bind. apply (place_buffer HB); [exact He|]. cbn [pass]. apply wp_bind.
    assert (HR : wp (fun m => and_then (invoke m (inr (0, [Fname "buffer"])) "deref" []) (fun w => match w with VSlice l => part l None None | _ => stop Wrong end))
                    (at_src wsrc wb b s q f rest) (pass Q (fun v s1 => wp (R := R) (fun _ => spot_of (inl v)) s1 Q))).
    { apply wp_bind. eapply wp_conseq; [exact HQ|]. intros o s1. destruct o as [v| | | | |]; cbn [pass]; try exact (fun H => H).
      destruct v; try contradiction. intros HQ1. eapply wp_now with (o := Val (VSlice _)).
      - intros m K. reflexivity.
      - cbn [pass]. eapply wp_now; [reflexivity|exact HQ1]. }
    destruct (bs_shape HB b) as [[o Ho]|(ty & fs & Ho)].
    - apply wp_now with (o := Val (VObj o)) (s' := at_src wsrc wb b s q f rest); [intros m K; rewrite <- Ho; reflexivity|exact HR].
    - apply wp_now with (o := Val (VRec ty fs)) (s' := at_src wsrc wb b s q f rest); [intros m K; rewrite <- Ho; reflexivity|exact HR].
  Qed.

  (** The memory at variable 1. *)
  Notation w_mem m cap more count := (VMem m cap more count).
  Lemma text_src_read_says st m cap more count a n : ok (src_buffer st) -> src_read ds ops n st <> Stuck ->
    says "Source" "read" [VRef 0 []; VPart 1 [] a n] [w_st st; w_mem m cap more count] (src_read ds ops n st)
      (fun x => w_io (fun l => VNat (List.length l)) (snd x))
      (fun x => [w_st (fst x); w_mem (match snd x with IoOk l => firstn a m ++ overwrite (List.map Some l) (skipn a m) | IoErr _ => m end) cap more count]).
  Proof.
    intros Hok HS. set (M := w_mem m cap more count). unfold src_read in *. eapply wp_apply; [reflexivity|reflexivity|]. apply wp_seq.
    assert (HRest : forall st1, ok (src_buffer st1) ->
      (let! data := op_deref ops (src_buffer st1) in
       let out := firstn n data in
       let! b := op_consume ops (src_buffer st1) (List.length out) in
       Done (src_with st1 b (src_source st1), IoOk out)) <> Stuck ->
      wp (fun m => eval m [("buf", inl (VPart 1 [] a n)); ("self", inl (VRef 0 []))] (match text_Source_read with mkFn _ _ (ESeq _ e) => e | _ => EUnit end)) [w_st st1; M]
         (fun o s => fits (let! data := op_deref ops (src_buffer st1) in
                           let out := firstn n data in
                           let! b := op_consume ops (src_buffer st1) (List.length out) in
                           Done (src_with st1 b (src_source st1), IoOk out))
           (fun x => w_io (fun l => VNat (List.length l)) (snd x))
           (fun x => [w_st (fst x); w_mem (match snd x with IoOk l => firstn a m ++ overwrite (List.map Some l) (skipn a m) | IoErr _ => m end) cap more count])
           (caught o) (st_cut s 2))).
    { clear HS Hok st. intros [s b q fi fe fa] Hok HS. cbn [src_buffer src_source] in *.
      change [w_st (mkSrc s b q fi fe fa); M] with (at_src wsrc wb b s q (w_state fi fe fa) [M]). set (f := w_state fi fe fa).
      apply wp_method. apply wp_place_method. apply wp_method. apply place_slice; [reflexivity|].
      eapply wp_fits; [apply (bs_deref HB); [exact Hok|cbn; lia]| |intros l Hl|intros Hl s'|intros Hl s'];
        [intros Hc; apply HS; rewrite Hc; reflexivity|rewrite Hl in *; cbn [run_bind pass fst snd] in *|rewrite Hl; reflexivity|rewrite Hl; reflexivity].
      apply wp_args_cons. leaf idtac. apply wp_args_nil. cbn [pass]. leaf idtac. apply wp_args_cons. leaf idtac. apply wp_args_nil. cbn [pass].
      apply wp_map_ok; [destruct verbose; reflexivity|discriminate|]. eapply wp_apply_closure; [reflexivity|].
      apply wp_seq. apply wp_method.
      apply (place_buffer HB _ b s q f [w_mem (firstn a m ++ overwrite (List.map Some (firstn n l)) (skipn a m)) cap more count]); [reflexivity|]. cbn [pass].
      apply wp_args_cons. leaf idtac. apply wp_args_nil. cbn [pass].
      eapply wp_fits; [apply (bs_consume HB b s q f [w_mem (firstn a m ++ overwrite (List.map Some (firstn n l)) (skipn a m)) cap more count]); [exact Hok|cbn; lia]
        | |intros b1 Hb|intros Hb s'|intros Hb s'];
        [intros Hc; apply HS; rewrite Hc; reflexivity|rewrite Hb in *; cbn [run_bind pass fst snd] in *|rewrite Hb; reflexivity|rewrite Hb; reflexivity].
      leaf idtac. split; reflexivity. }
    apply wp_if. apply wp_bin. leaf idtac. apply wp_method. leaf idtac. apply wp_args_nil. cbn [pass]. eapply self_invoke; [reflexivity|reflexivity|].
    eapply wp_fits; [apply (text_src_len_says HB [M]); [cbn; lia|exact Hok]| |intros l Hl|intros Hl s'|intros Hl s'];
        [intros Hc; apply HS; rewrite Hc; reflexivity|rewrite Hl in *; cbn [run_bind pass fst snd] in *|rewrite Hl; reflexivity|rewrite Hl; reflexivity].
    leaf idtac. destruct (l <? n); cbn [run_bind] in *.
    - apply wp_seq. apply wp_match. apply wp_method. leaf idtac. apply wp_args_cons. leaf idtac. apply wp_args_nil. cbn [pass].
      eapply self_invoke; [reflexivity|reflexivity|].
      eapply wp_fits; [apply (text_fill_requested_says HB [M] st); [cbn; lia|exact Hok|]| |intros [st1 r] Hx|intros Hx s'|intros Hx s'];
        [intros Hc; apply HS; rewrite Hc; reflexivity|intros Hc; apply HS; rewrite Hc; reflexivity|rewrite Hx in *; cbn [run_bind pass fst snd] in *
        |rewrite Hx; reflexivity|rewrite Hx; reflexivity].
      pose proof (fill_requested_ok HB _ st Hok Hx) as Hok1. cbn [fst] in Hok1.
      destruct r as [k|e]; cbn [w_io]; (split; [reflexivity|]).
      + leaf idtac. leaf idtac. exact (HRest st1 Hok1 HS).
      + leaf idtac. split; reflexivity.
    - leaf idtac. exact (HRest st Hok HS).
  Qed.
End Sources.
