(** Property C56: messages tell failures apart. *)
From Coq Require Import List Bool Arith NArith String Ascii Lia.
From Coq.Init Require Import Byte.
From Verif Require Import Base Parsers Buffer Stream SpecAscii Messages SpecMessages MessagesProofs.
Import ListNotations.
Local Open Scope string_scope.
Local Notation text := String.string.

Set Implicit Arguments.

(** Numbers are written in decimal, and in no other way. *)
Theorem C56_number n s : decimal_of n s <-> nat_text n = s.
Proof. split; [intros H; symmetry; eapply decimal_unique; [apply le_n|exact H]|intros <-; apply nat_text_decimal]. Qed.
Print Assumptions C56_number.
Example C56_number_case : nat_text 0 = "0" /\ nat_text 1050 = "1050" /\ ~ decimal_of 7 "07" /\ decimal_of 70 "70".
Proof.
  split; [reflexivity|]. split; [reflexivity|]. split; [|apply C56_number; reflexivity]. intros (_ & _ & H). destruct (H "7" eq_refl). discriminate.
Qed.

(** Bytes, the usual items, have texts which can be told apart, in lists too. *)
Theorem C56_bytes : plain_text byte_text /\ tells_apart (list_text byte_text).
Proof. split; [exact byte_text_plain|apply list_text_inj, byte_text_plain]. Qed.
Print Assumptions C56_bytes.

(** Two errors with the same [Debug] text are the same error; so are those with the same [Display] text. *)
Theorem C56_debug I (show : I -> text) phantom : plain_text show -> tells_apart (error_debug show phantom).
Proof.
  intros Hp [c| |l|] [d| |m|] H; try discriminate H; try reflexivity; unfold error_debug, tuple_text, concat in H.
  - f_equal. apply (cancel_l "Expected"), (cancel_l "("), cancel_r in H. apply (proj1 Hp). exact H.
  - f_equal. apply (cancel_l "String"), (cancel_l "("), cancel_r in H. apply (list_text_inj Hp). exact H.
Qed.
Print Assumptions C56_debug.
Theorem C56_display I (show : I -> text) : plain_text show -> tells_apart (error_display show).
Proof.
  assert (K : plain_text show -> forall c l, show c <> list_text show l).
  { intros Hp c l H. destruct (proj2 Hp c) as (_ & _ & Hb & _). apply Hb. rewrite H. left. reflexivity. }
  intros Hp [c| |l|] [d| |m|] H; try discriminate H; try reflexivity; unfold error_display in H; apply (cancel_l "expected ") in H.
  - f_equal. apply (proj1 Hp). exact H.
  - exfalso. exact (K Hp _ _ H).
  - exfalso. exact (K Hp _ _ (eq_sym H)).
  - f_equal. apply (list_text_inj Hp). exact H.
Qed.
Print Assumptions C56_display.
(** Where the items are lists themselves [Display] does not say whether an item or a string of items was expected. *)
Theorem C56_display_refuted : exists e e' : error (list byte), tells_apart (list_text byte_text) /\ e <> e' /\
  error_display (list_text byte_text) e = error_display (list_text byte_text) e' /\
  error_debug (list_text byte_text) "PhantomData" e <> error_debug (list_text byte_text) "PhantomData" e'.
Proof. exists (Expected []), (EString []). split; [apply C56_bytes|]. repeat split; discriminate. Qed.
Print Assumptions C56_display_refuted.
Example C56_error_case : error_debug byte_text "PhantomData" (EString (bytes "GET ")) = "String([71, 69, 84, 32])" /\
  error_display byte_text (EString (bytes "GET ")) = "expected [71, 69, 84, 32]" /\ error_display byte_text (Expected "b"%byte) = "expected 98" /\
  error_debug byte_text "PhantomData" EPlain = "Error(PhantomData)" /\ error_display byte_text Unexpected = "unexpected" /\
  error_display byte_text EPlain = "generic parse error (chomp was compiled without --feature verbose_error)" /\
  error_description (Expected "b"%byte) = "expected a certain token, received another" /\ error_description (@Unexpected byte) = "received an unexpected token" /\
  error_description (EString (bytes "GET ")) = "expected a certain string of tokens, encountered an unexpected token" /\
  error_description (@EPlain byte) = "generic parse error (chomp was compiled without --feature verbose_error)".
Proof. repeat split; vm_compute; reflexivity. Qed.

(** [description] tells which kind of error it is, and nothing else. *)
Theorem C56_description I (e e' : error I) :
  error_description e = error_description e' <->
  match e, e' with
  | Expected _, Expected _ => True
  | Unexpected, Unexpected => True
  | EString _, EString _ => True
  | EPlain, EPlain => True
  | _, _ => False
  end.
Proof. destruct e, e'; cbn; split; intros H; try discriminate; tauto. Qed.
Print Assumptions C56_description.

(** What [parse_only], a [Stream] and a parser return: the whole value can be read off the text. *)
Theorem C56_parse_error I E (show : I -> text) (show_e : E -> text) : plain_text show -> tells_apart show_e ->
  tells_apart (parse_error_debug show show_e).
Proof.
  intros Hp He [b e|n] [b' e'|n'] H; try discriminate H; unfold parse_error_debug, tuple_text, concat in H.
  - apply (cancel_l "Error") in H. apply (cancel_l "(") in H. rewrite !sapp_assoc in H. destruct (list_text_split Hp H) as [-> H'].
    apply (cancel_l ", ") in H'. apply cancel_r in H'. apply He in H'. congruence.
  - apply (cancel_l "Incomplete") in H. apply (cancel_l "(") in H. apply cancel_r in H. apply nat_text_inj in H. congruence.
Qed.
Print Assumptions C56_parse_error.
Theorem C56_stream_error I E (show : I -> text) (show_e : E -> text) (show_io : nat -> text) : plain_text show -> tells_apart show_e ->
  tells_apart show_io -> tells_apart (stream_error_debug show show_e show_io).
Proof.
  intros Hp He Hio [b e|n|k| |] [b' e'|n'|k'| |] H; try discriminate H; try reflexivity; unfold stream_error_debug, tuple_text, concat in H.
  - apply (cancel_l "ParseError") in H. apply (cancel_l "(") in H. rewrite !sapp_assoc in H. destruct (list_text_split Hp H) as [-> H'].
    apply (cancel_l ", ") in H'. apply cancel_r in H'. apply He in H'. congruence.
  - apply (cancel_l "Incomplete") in H. apply (cancel_l "(") in H. apply cancel_r in H. apply nat_text_inj in H. congruence.
  - apply (cancel_l "IoError") in H. apply (cancel_l "(") in H. apply cancel_r in H. apply Hio in H. congruence.
Qed.
Print Assumptions C56_stream_error.
Theorem C56_result I T E (show : I -> text) (show_t : T -> text) (show_e : E -> text) (mode : bool -> text) : plain_text show ->
  tells_apart show_t -> tells_apart show_e -> tells_apart mode -> (forall b, ~ occurs "[" (mode b)) ->
  forall r r' s, pres_debug show show_t show_e mode r = Some s -> pres_debug show show_t show_e mode r' = Some s -> r = r'.
Proof.
  intros Hp Ht He Hm Hb r r' s H H'. destruct r as [i t|b e|n| |], r' as [i' t'|b' e'|n'| |]; try discriminate; rewrite <- H' in H; clear s H';
    try discriminate H; unfold pres_debug, input_debug, tuple_text, concat in H;
    apply (f_equal (fun o => match o with Some s => s | None => "" end)) in H; cbv beta iota in H;
    apply (cancel_l "ParseResult"), (cancel_l "("), cancel_r in H; rename H into H'.
  - apply (cancel_l "Data"), (cancel_l "("), cancel_r in H'. rewrite !sapp_assoc in H'. apply (cancel_l "Input"), (cancel_l "(") in H'.
    destruct i as [l b], i' as [l' b']. cbn [last buf] in H'.
    assert (Hs : forall b, ~ occurs "[" (mode b ++ ", ")).
    { intros c Ho. apply occurs_app in Ho. destruct Ho as [Ho|[Ho|[Ho|[]]]]; try discriminate. exact (Hb _ Ho). }
    pose proof (@split_at "[" (mode l ++ ", ") (mode l' ++ ", ") ((concat ", " (List.map show b) ++ "]") ++ ")" ++ ", " ++ show_t t)
      ((concat ", " (List.map show b') ++ "]") ++ ")" ++ ", " ++ show_t t') (Hs l) (Hs l')) as S. rewrite !(sapp_assoc (mode _)) in S.
    destruct (S H') as [El Er]. apply cancel_r, Hm in El. subst l'. apply (f_equal (String "[")) in Er.
    destruct (list_text_split Hp Er) as [-> Eq]. apply (cancel_l ")"), (cancel_l ", "), Ht in Eq. congruence.
  - apply (cancel_l "Error"), (cancel_l "("), cancel_r in H'. destruct (list_text_split Hp H') as [-> Eq].
    apply (cancel_l ", "), He in Eq. congruence.
  - apply (cancel_l "Incomplete"), (cancel_l "("), cancel_r, nat_text_inj in H'. congruence.
Qed.
Print Assumptions C56_result.
(** The text of a value begins with the name its variant has in the source, alone or before its fields in parentheses. *)
Definition names (variant s : text) : Prop := s = variant \/ exists fields, s = variant ++ "(" ++ fields ++ ")".
Theorem C56_names I T E (show : I -> text) (show_t : T -> text) (show_e : E -> text) (show_io : nat -> text) (phantom : text) (mode : bool -> text) :
  (forall e : error I, names (match e with Expected _ => "Expected" | Unexpected => "Unexpected" | EString _ => "String" | EPlain => "Error" end)
     (error_debug show phantom e)) /\
  (forall e : parse_error I E, names (match e with PErr _ _ => "Error" | PIncomplete _ => "Incomplete" end) (parse_error_debug show show_e e)) /\
  (forall e : stream_error I E, names (match e with SParseError _ _ => "ParseError" | SIncomplete _ => "Incomplete" | SIoError _ => "IoError"
     | SEndOfInput => "EndOfInput" | SRetry => "Retry" end) (stream_error_debug show show_e show_io e)) /\
  (forall (r : pres I T E) s, pres_debug show show_t show_e mode r = Some s -> exists state, s = "ParseResult" ++ "(" ++ state ++ ")" /\
     match r with
     | Data _ _ => names "Data" state
     | Error _ _ => names "Error" state
     | Incomplete _ => names "Incomplete" state
     | Panic => False
     | NoFuel => False
     end).
Proof.
  repeat split.
  - intros [c| |l|]; cbn -[append]; try (left; reflexivity); right; eexists; reflexivity.
  - intros [b e|n]; right; eexists; reflexivity.
  - intros [b e|n|k| |]; try (left; reflexivity); right; eexists; reflexivity.
  - intros [i t|b e|n| |] s H; try discriminate H; apply (f_equal (fun o => match o with Some u => u | None => "" end)) in H; cbn [pres_debug] in H; subst s; unfold tuple_text, concat;
      eexists; (split; [reflexivity|]); right; eexists; reflexivity.
Qed.
Print Assumptions C56_names.

Example C56_result_case : let mode := fun b : bool => if b then "DEFAULT | END_OF_INPUT" else "DEFAULT" in
  tells_apart mode /\ (forall b, ~ occurs "[" (mode b)) /\
  pres_debug byte_text nat_text (error_debug byte_text "PhantomData") mode (Data (mkInput true (bytes "ab")) 12) =
    Some "ParseResult(Data(Input(DEFAULT | END_OF_INPUT, [97, 98]), 12))" /\
  pres_debug byte_text nat_text (error_debug byte_text "PhantomData") mode (Error (bytes "ab") (EString [])) = Some "ParseResult(Error([97, 98], String([])))" /\
  stream_error_debug byte_text (error_debug byte_text "PhantomData") nat_text (SParseError (bytes "b") Unexpected) = "ParseError([98], Unexpected)".
Proof.
  split; [intros [] [] H; (reflexivity || discriminate H)|]. split.
  - intros [] H; cbn in H; repeat (destruct H as [H|H]; [discriminate|]); exact H.
  - repeat split; vm_compute; reflexivity.
Qed.

(** [unwrap] and [unwrap_err] give what they should or panic; what the panic says, and which message belongs to which failure. *)
Theorem C56_unwrap I T E (show_e : E -> text) (r : pres I T E) :
  (forall t, unwrap_says show_e r = Some (inl t) <-> unwrap r = Some t) /\
  (forall msg t, expect_says show_e msg r = Some (inl t) <-> unwrap r = Some t) /\
  (forall (show_t : T -> text) e, unwrap_err_says show_t r = Some (inl e) <-> unwrap_err r = Some e).
Proof. repeat split; intros; destruct r; cbn in *; congruence. Qed.
Print Assumptions C56_unwrap.
Theorem C56_unwrap_message I T E (show_e : E -> text) (r r' : pres I T E) s :
  unwrap_says show_e r = Some (inr s) -> unwrap_says show_e r' = Some (inr s) ->
  (exists n, r = Incomplete n /\ r' = Incomplete n) \/
  exists b b' e e', r = Error b e /\ r' = Error b' e' /\ show_e e = show_e e'.
Proof.
  intros H H'. destruct r as [i t|b e|n| |], r' as [i' t'|b' e'|n'| |]; cbn [unwrap_says] in H, H'; try discriminate; rewrite <- H' in H; clear H'.
  - right. exists b, b', e, e'. repeat split. injection H as H. exact H.
  - exfalso. discriminate H.
  - exfalso. discriminate H.
  - left. exists n. split; [reflexivity|]. f_equal. symmetry. apply nat_text_inj. injection H as H. apply cancel_r in H. exact H.
Qed.
Print Assumptions C56_unwrap_message.
Theorem C56_unwrap_err_message I T E (show_t : T -> text) (r r' : pres I T E) s :
  unwrap_err_says show_t r = Some (inr s) -> unwrap_err_says show_t r' = Some (inr s) ->
  (exists n, r = Incomplete n /\ r' = Incomplete n) \/
  exists i i' t t', r = Data i t /\ r' = Data i' t' /\ show_t t = show_t t'.
Proof.
  intros H H'. destruct r as [i t|b e|n| |], r' as [i' t'|b' e'|n'| |]; cbn [unwrap_err_says] in H, H'; try discriminate; rewrite <- H' in H; clear H'.
  - right. exists i, i', t, t'. repeat split. injection H as H. exact H.
  - exfalso. discriminate H.
  - exfalso. discriminate H.
  - left. exists n. split; [reflexivity|]. f_equal. symmetry. apply nat_text_inj. injection H as H. apply cancel_r in H. exact H.
Qed.
Print Assumptions C56_unwrap_err_message.

(** [expect] says less: with the errors of the library one can tell an error from a parser which wants more, *)
Theorem C56_expect I T (show : I -> text) phantom msg (r r' : pres I T (error I)) s (Hp : plain_text show) :
  expect_says (error_debug show phantom) msg r = Some (inr s) -> expect_says (error_debug show phantom) msg r' = Some (inr s) ->
  (exists n n', r = Incomplete n /\ r' = Incomplete n') \/ exists b b' e, r = Error b e /\ r' = Error b' e.
Proof.
  assert (K : forall e, error_debug show phantom e <> "Parser in an incomplete state") by (intros []; discriminate).
  intros H H'. destruct r as [i t|b e|n| |], r' as [i' t'|b' e'|n'| |]; cbn [expect_says] in H, H'; try discriminate; rewrite <- H' in H; clear H'.
  - right. exists b, b', e. repeat split. f_equal. symmetry. apply (C56_debug phantom Hp). injection H as H.
    apply cancel_l in H. injection H as H. exact H.
  - exfalso. injection H as H. apply cancel_l in H. injection H as H. exact (K _ H).
  - exfalso. injection H as H. apply cancel_l in H. injection H as H. exact (K _ (eq_sym H)).
  - left. exists n, n'. split; reflexivity.
Qed.
Print Assumptions C56_expect.
(** but not how much it wants, and with other errors not even that. *)
Theorem C56_expect_refuted (I T E : Type) (b : list I) msg :
  (forall show_e : E -> text, @expect_says I T E show_e msg (Incomplete 1) = @expect_says I T E show_e msg (Incomplete 2)) /\
  tells_apart (fun s : text => s) /\
  @expect_says I T text (fun s => s) msg (Error b "Parser in an incomplete state") = @expect_says I T text (fun s => s) msg (Incomplete 1).
Proof. repeat split. intros x y H. exact H. Qed.
Print Assumptions C56_expect_refuted.

(** What is said about a token which is not there, whatever token and input. *)
Theorem C56_token (t c : byte) b l : t <> c -> 
  let r := token true Byte.eqb t (mkInput l (c :: b)) in
  unwrap_says (error_debug byte_text "PhantomData") r = Some (inr ("called `ParseResult::unwrap` on an error: Expected(" ++ byte_text t ++ ")")) /\
  (forall msg, expect_says (error_debug byte_text "PhantomData") msg r = Some (inr (msg ++ ": Expected(" ++ byte_text t ++ ")"))) /\
  parse_only (token true Byte.eqb t) (c :: b) = OErr (PErr (c :: b) (Expected t)) /\
  parse_error_debug byte_text (error_debug byte_text "PhantomData") (PErr (c :: b) (Expected t)) =
    "Error(" ++ list_text byte_text (c :: b) ++ ", Expected(" ++ byte_text t ++ "))".
Proof.
  intros Hn r. assert (Hb : Byte.eqb t c = false).
  { destruct (Byte.eqb t c) eqn:Eb; [|reflexivity]. apply Byte.byte_dec_bl in Eb. congruence. }
  assert (Et : forall l, token true Byte.eqb t (mkInput l (c :: b)) = Error (c :: b) (Expected t)).
  { intros l0. unfold token. cbn [buf first]. rewrite Hb. reflexivity. }
  unfold r. rewrite Et. split; [reflexivity|]. split; [reflexivity|]. split; [unfold parse_only, input_new; rewrite Et; reflexivity|].
  unfold parse_error_debug, error_debug, tuple_text, concat. rewrite !sapp_assoc. reflexivity.
Qed.
Print Assumptions C56_token.
Theorem C56_token_there (t : byte) b l :
  let r := token true Byte.eqb t (mkInput l (t :: b)) in
  unwrap_says (error_debug byte_text "PhantomData") r = Some (inl t) /\ (forall msg, expect_says (error_debug byte_text "PhantomData") msg r = Some (inl t)) /\
  unwrap_err_says byte_text r = Some (inr ("called `ParseResult::unwrap_err` on a success state: " ++ byte_text t)).
Proof.
  assert (Hb : Byte.eqb t t = true) by (apply Byte.byte_dec_lb; reflexivity).
  intros r. unfold r, token. cbn [buf first]. rewrite Hb. repeat split.
Qed.
Print Assumptions C56_token_there.
(** And about too few items. *)
Theorem C56_take I n (b : list I) l show_e show_t : List.length b < n ->
  let r := take n (mkInput l b) : pres I (list I) (error I) in
  unwrap_says show_e r = Some (inr ("called `ParseResult::unwrap` on an incomplete state (requested " ++ nat_text (n - List.length b) ++ " tokens)")) /\
  (forall msg, expect_says show_e msg r = Some (inr (msg ++ ": Parser in an incomplete state"))) /\
  unwrap_err_says show_t r = Some (inr ("called `ParseResult::unwrap_err` on an incomplete state (requested " ++ nat_text (n - List.length b) ++ " tokens)")).
Proof. intros H r. unfold r, take. cbn [buf]. destruct (Nat.leb_spec n (List.length b)); [lia|]. repeat split. Qed.
Print Assumptions C56_take.

(** The messages given in the documentation (src/parse_result.rs:274-293, 320-325, 363-368): all but one are right; that of line 281 has a space
    which the code does not write. *)
Theorem C56_documented_refuted :
  let dbg := error_debug byte_text "PhantomData" in
  unwrap_says dbg (token true Byte.eqb "b"%byte (input_new (bytes "a"))) <> Some (inr "called `ParseResult::unwrap` on an error: Expected (98)") /\
  unwrap_says dbg (token true Byte.eqb "b"%byte (input_new (bytes "a"))) = Some (inr "called `ParseResult::unwrap` on an error: Expected(98)").
Proof. split; vm_compute; congruence. Qed.
Print Assumptions C56_documented_refuted.
Example C56_documented :
  let dbg := error_debug byte_text "PhantomData" in
  unwrap_says dbg (take 2 (input_new (bytes "a"))) = Some (inr "called `ParseResult::unwrap` on an incomplete state (requested 1 tokens)") /\
  expect_says dbg "Wanted character b" (token true Byte.eqb "b"%byte (input_new (bytes "a"))) = Some (inr "Wanted character b: Expected(98)") /\
  unwrap_err_says byte_text (token true Byte.eqb "a"%byte (input_new (bytes "a"))) = Some (inr "called `ParseResult::unwrap_err` on a success state: 97").
Proof. repeat split; vm_compute; reflexivity. Qed.
