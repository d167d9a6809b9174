(** C79: state which closures keep over the calls of a stream. *)
From Coq Require Import List Bool Arith Lia.
From Verif Require Import Base Parsers Combinators Buffer Stream StdIo SpecBase SpecBuffer SpecSafe SpecStream SpecAnyBuffer Effects SpecEffects SpecKeep
  SafeProofs StableProofs BufferProofs StreamProofs SimProofs KeepProofs PropsAnyBuffer.
Import ListNotations.

Set Implicit Arguments.

(** * Which parsers qualify *)

(** In the stream-safe expressions over the library, what callbacks did to the world before a value or an error is not revised when there
    is more input, whatever the callbacks do. *)
Theorem C79_firm : forall W I T E (p : sparser W I T E), keeping p -> firm p /\ forall w, well_behaved (fun i => fst (p w i)).
Proof. intros W I T E p H. split; [apply keeping_firm; assumption|]. intros w i. exact (keeping_honest H w i). Qed.
Print Assumptions C79_firm.

(** These call no user code, or have it followed by none of their own requests: they keep a request for more input from leaving a trace. *)
Theorem C79_tentative : forall W I,
  (forall T E (p : parser I T E), tentative (lifted p : sparser W I T E)) /\
  (forall v f, tentative (@satisfy_w W I v f)) /\
  (forall T v icl tcl (f : callback W I T) g, tentative (satisfy_with_w v icl tcl f g)) /\
  (forall v eq t, tentative (@token_w W I v eq t)) /\ (forall v ne t, tentative (@not_token_w W I v ne t)) /\
  (forall v ne s, tentative (@string_w W I v ne s)) /\
  (forall T U E (f : callback W T U) (p : sparser W I T E), tentative p -> tentative (fun w i => let (r, w) := p w i in map_w f r w)) /\
  (forall T E V (f : callback W E V) (p : sparser W I T E), tentative p -> tentative (fun w i => let (r, w) := p w i in map_err_w f r w)) /\
  (forall T E (f : callback W T unit) (p : sparser W I T E), tentative p -> tentative (fun w i => let (r, w) := p w i in inspect_w f r w)) /\
  (forall T E (p : sparser W I T E) d, tentative p -> tentative (option_w p d)) /\
  (forall T E (p : sparser W I T E), tentative p -> tentative (matched_by_w p)) /\
  (forall T E (p : sparser W I T E), tentative p -> tentative (look_ahead_w p)).
Proof.
  intros W I. repeat apply conj.
  - intros T E p w i n _. reflexivity.
  - intros v f w [l [|x b]] n H; [reflexivity|]. unfold satisfy_w in *. cbn in *. destruct (f x w) as [[[]|] w1]; discriminate.
  - intros T v icl tcl f g w [l [|x b]] n H; [reflexivity|]. unfold satisfy_with_w in *. cbn in *. destruct (icl x w) as [[y|] w1]; [|discriminate].
    destruct (f y w1) as [[z|] w2]; [|discriminate]. destruct (tcl z w2) as [[z'|] w3]; [|discriminate]. destruct (g z' w3) as [[[]|] w4]; discriminate.
  - intros v eq t w [l [|x b]] n H; [reflexivity|]. unfold token_w in *. cbn in *. destruct (eq (t, x) w) as [[[]|] w1]; discriminate.
  - intros v ne t w [l [|x b]] n H; [reflexivity|]. unfold not_token_w in *. cbn in *. destruct (ne (t, x) w) as [[[]|] w1]; discriminate.
  - intros v ne s w i n H. unfold string_w in *. destruct (length (buf i) <? length s); [reflexivity|].
    destruct (string_mismatch_w ne 0 s (firstn (length s) (buf i)) w) as [[[j|]|] w1]; cbn [fst] in H; [|discriminate|discriminate]. unfold err_string in H. destruct v; discriminate.
  - intros T U E f p Hp w i n H. specialize (Hp w i). destruct (p w i) as [[j t|b e|m| |] w1]; cbn [map_w fst snd] in *; try discriminate; eauto.
    destruct (f t w1) as [[u|] w2]; discriminate.
  - intros T E V f p Hp w i n H. specialize (Hp w i). destruct (p w i) as [[j t|b e|m| |] w1]; cbn [map_err_w fst snd] in *; try discriminate; eauto.
    destruct (f e w1) as [[u|] w2]; discriminate.
  - intros T E f p Hp w i n H. specialize (Hp w i). destruct (p w i) as [[j t|b e|m| |] w1]; cbn [inspect_w fst snd] in *; try discriminate; eauto.
    destruct (f t w1) as [[u|] w2]; discriminate.
  - intros T E p d Hp w i n H. specialize (Hp w i). unfold option_w in *. destruct (p w i) as [[j t|b e|m| |] w1]; cbn [fst snd] in *; try discriminate; eauto.
  - intros T E p Hp w i n H. specialize (Hp w i). unfold matched_by_w in *. destruct (p w i) as [[j t|b e|m| |] w1]; cbn [fst snd] in *; try discriminate; eauto.
    destruct (length (buf i) <? length (buf j)); discriminate.
  - intros T E p Hp w i n H. specialize (Hp w i). unfold look_ahead_w in *. destruct (p w i) as [[j t|b e|m| |] w1]; cbn [fst snd] in *; try discriminate; eauto.
Qed.
Print Assumptions C79_tentative.

(** Anything else does if it works on a copy of the world: with the results of the original, and its effects with a value or an error. *)
Theorem C79_copy : forall W I T E (p : sparser W I T E),
  (forall w i, fst (on_a_copy p w i) = fst (p w i)) /\
  (forall w i, (forall n, fst (p w i) <> Incomplete n) -> on_a_copy p w i = p w i) /\
  tentative (on_a_copy p) /\ (firm p -> firm (on_a_copy p)).
Proof.
  intros W I T E p. split; [|split; [|split; [|apply copy_firm]]].
  - intros w i. unfold on_a_copy. destruct (p w i) as [[j t|b e|n| |] w1]; reflexivity.
  - intros w i H. unfold on_a_copy. destruct (p w i) as [[j t|b e|n| |] w1]; try reflexivity. destruct (H n eq_refl).
  - intros w i n. unfold on_a_copy. destruct (p w i) as [[j t|b e|m| |] w1]; cbn; try discriminate; reflexivity.
Qed.
Print Assumptions C79_copy.

(** * Over a Source *)

(** A program gets the same answers and leaves the same world over a Source (any lawful buffer, any way the data comes, failed reads and
    repeated calls) as over the data as a slice, where each call is made once. *)
Theorem C79_answers : forall W St I B T E (ds : data_source St I) (ops : buffer_ops I B) fits b0 R s data e (c : work W I T E) fuel w, obeys ds -> delivers ds R -> R s data e ->
  lawful ops fits b0 -> fits 1 -> work_suits fits (slice_new data) w c -> 2 * length data + e + 2 <= fuel ->
  source_work ds ops fuel c (src_with_buffer s b0) w = slice_work c (slice_new data) w.
Proof.
  intros W St I B T E ds ops fits b0 R s data e c fuel w Ho HR Hs (inv & view & room & Q & Hi & Hv) Hone Hc Hf.
  eapply (work_fresh Q Ho Hone HR); eauto.
Qed.
Print Assumptions C79_answers.

(** With a buffer that grows all firm parsers may be used which need some input, on a copy of the world. *)
Theorem C79_suits : forall W I T E rest (w : W) (p : sparser W I T E), keeping p -> (forall i, fst (p w i) <> NoFuel) ->
  (exists n, fst (p w (mkInput false [])) = Incomplete n) -> suits_w (fun _ => True) rest w (on_a_copy p).
Proof.
  intros W I T E rest w p Hp Hd [n Hn]. destruct (C79_copy p) as (H1 & _ & H3 & H4). split.
  - apply H4. apply keeping_firm. assumption.
  - apply H3.
  - intros i. rewrite H1. apply keeping_honest. assumption.
  - intros i. rewrite H1. apply Hd.
  - intros _. exists n. rewrite H1. assumption.
  - intros. exact Logic.I.
Qed.
Print Assumptions C79_suits.

(** A predicate that counts its calls: items other than 0, and the 0 behind them. *)
Definition C79_nonzero : callback nat nat bool := fun c w => (Some (negb (c =? 0)), S w).
Definition C79_record : sparser nat nat (list nat) (error nat) := fun w i =>
  let (r, w) := take_while1_w false C79_nonzero w i in
  bind_w (fun e w => (Some e, w)) r (fun l w i => let (r, w) := lifted (token false Nat.eqb 0) w i in map_w (fun _ w => (Some l, w)) r w) w.
Fixpoint C79_times (n : nat) (p : sparser nat nat (list nat) (error nat)) : work nat nat (list nat) (error nat) :=
  match n with 0 => Finish | S n => Parse p (fun _ _ => C79_times n p) end.

Lemma C79_record_keeping : keeping C79_record.
Proof.
  apply k_bind; [apply k_take_while1|]. intros l. apply k_map. apply k_lifted. apply s_token.
Qed.

Lemma C79_record_decides : forall w i, fst (C79_record w i) <> NoFuel.
Proof.
  intros w [l b] H. unfold C79_record, take_while1_w in H. cbn [buf last] in H. destruct (position_w (is_false C79_nonzero) b w) as [[[[|m]|]|] w1]; cbn -[Nat.ltb] in H; try discriminate.
  - unfold token in H. cbn [buf] in H. destruct (first _) as [x|]; [|discriminate]. destruct (0 =? x); discriminate.
  - destruct ((0 <? length b) && l); unfold ret, incomplete in H; cbn -[Nat.ltb] in H; discriminate.
Qed.

(** Over all ways to cut the data, the calls on a copy count as over the slice, *)
Example C79_case : forall n cs, ~ In (Some []) cs ->
  source_work (read_data_source chunk_read) (growing_ops nat) (2 * length (chunks_data cs) + chunks_errors cs + 2) (C79_times n (on_a_copy C79_record))
    (src_with_buffer cs (growing_with_limit 0 (fun _ => 0) 0)) 0 =
  slice_work (C79_times n (on_a_copy C79_record)) (slice_new (chunks_data cs)) 0.
Proof.
  intros n cs Hcs.
  apply (@C79_answers _ _ _ _ _ _ _ _ (fun _ => True) _ schedule cs (chunks_data cs) (chunks_errors cs) _ _ _ (@chunk_obeys nat) (@chunk_delivers nat));
    [repeat split; auto|apply tight_lawful, C63_growing|exact Logic.I| |lia].
  generalize (slice_new (chunks_data cs)). generalize 0. induction n as [|n IH]; intros w s; [apply ws_finish|]. apply ws_parse; [|intros; apply IH].
  apply C79_suits; [apply C79_record_keeping| |exists 1; reflexivity].
  intros i. apply C79_record_decides.
Qed.
(** with answers and failed reads in between; *)
Example C79_case_run : let cs := [Some [1]; None; Some [2; 0]; Some [3]; Some [4]; None; Some [0; 0]] in
  slice_work (C79_times 4 (on_a_copy C79_record)) (slice_new (chunks_data cs)) 0 =
    Done ([inl [1; 2]; inl [3; 4]; inr (SParseError [] EPlain); inr (SParseError [] EPlain)], 8) /\
  source_work (read_data_source chunk_read) (growing_ops nat) 20 (C79_times 4 (on_a_copy C79_record))
    (src_with_buffer cs (growing_with_limit 0 (fun _ => 0) 0)) 0 =
    Done ([inl [1; 2]; inl [3; 4]; inr (SParseError [] EPlain); inr (SParseError [] EPlain)], 8).
Proof. split; vm_compute; reflexivity. Qed.

(** but without the copy they do not, though the parser is firm and the answers are the same. *)
Theorem C79_refuted : ~ (forall W St I B T E (ds : data_source St I) (ops : buffer_ops I B) fits b0 R s data e (p : sparser W I T E) fuel w, obeys ds -> delivers ds R -> R s data e ->
  lawful ops fits b0 -> fits 1 -> keeping p -> suits_w fits data w (on_a_copy p) -> 2 * length data + e + 2 <= fuel ->
  source_work ds ops fuel (Parse p (fun _ _ => Finish)) (src_with_buffer s b0) w = slice_work (Parse p (fun _ _ => Finish)) (slice_new data) w).
Proof.
  intros H. pose (cs := [Some [1]; Some [2; 0]]).
  specialize (H nat _ nat _ _ _ (read_data_source chunk_read) (growing_ops nat) (fun _ => True) (growing_with_limit 0 (fun _ => 0) 0) schedule cs (chunks_data cs) 0 C79_record 20 0
    (@chunk_obeys nat) (@chunk_delivers nat)).
  assert (A : source_work (read_data_source chunk_read) (growing_ops nat) 20 (Parse C79_record (fun _ _ => Finish)) (src_with_buffer cs (growing_with_limit 0 (fun _ => 0) 0)) 0 = Done ([inl [1; 2]], 6))
    by (vm_compute; reflexivity).
  assert (B : slice_work (Parse C79_record (fun _ _ => Finish)) (slice_new (chunks_data cs)) 0 = Done ([inl [1; 2]], 3)) by (vm_compute; reflexivity).
  rewrite A, B in H. enough (G : Done ([inl [1; 2] : sres nat (list nat) (error nat)], 6) = Done ([inl [1; 2]], 3)) by discriminate. apply H.
  - split; [|split; reflexivity]. cbn. intros [G|[G|[]]]; discriminate.
  - apply tight_lawful, C63_growing.
  - exact Logic.I.
  - apply C79_record_keeping.
  - apply C79_suits; [apply C79_record_keeping| |exists 1; reflexivity].
    intros i. apply C79_record_decides.
  - cbn. lia.
Qed.
Print Assumptions C79_refuted.

(** Nor are searches, sequences, alternatives and loops tentative: they ask for more after callbacks have been called. *)
Theorem C79_tentative_refuted : exists f : callback nat nat bool, let one := satisfy_w false f in
  ~ tentative (take_while_w f) /\ ~ tentative (take_while1_w false f) /\ ~ tentative (take_till_w (fun c w => (Some c, w)) f) /\
  ~ tentative (fun w i => let (r, w) := one w i in then_w (fun e w => (Some e, w)) r one w) /\
  ~ tentative (or_w one (lifted (fun i => then_ (fun e => e) (any i) any))) /\
  ~ tentative (many_w 9 (vec_collector nat) one).
Proof.
  exists (fun c w => (Some (c <? 4), S w)). cbn zeta. repeat apply conj; intros H.
  - specialize (H 0 (mkInput false [1]) 1 eq_refl). discriminate.
  - specialize (H 0 (mkInput false [1]) 1 eq_refl). discriminate.
  - specialize (H 0 (mkInput false [9]) 1 eq_refl). discriminate.
  - specialize (H 0 (mkInput false [1]) 1 eq_refl). discriminate.
  - specialize (H 0 (mkInput false [9]) 1 eq_refl). discriminate.
  - specialize (H 0 (mkInput false [1]) 1 eq_refl). discriminate.
Qed.
Print Assumptions C79_tentative_refuted.

(** * The end of many_till *)

(** What is asked of the end parser is, without callbacks, what C21 asks (SpecSafe.v); a single item as the end and items which need input meet it
    with any callbacks. *)
Theorem C79_decisive : forall W I U V E N (p : sparser W I U E),
  (forall end_ : parser I V N, decisive_w p (lifted end_) <-> decisive p end_) /\
  ((forall w, fst (p w (mkInput false [])) = Incomplete 1) ->
   (forall v f, decisive_w p (@satisfy_w W I v f)) /\ (forall v eq t, decisive_w p (@token_w W I v eq t)) /\ (forall v ne t, decisive_w p (@not_token_w W I v ne t))).
Proof.
  intros W I U V E N p. split.
  - intros end_. split.
    + intros H w b n Hn. destruct (H w b n w) as [_ Hp]; [unfold lifted; rewrite Hn; reflexivity|exact Hp].
    + intros H w b n w1 Hn. unfold lifted in *. injection Hn as Hn <-. split; [exists n; exact Hn|]. exact (H w b n Hn).
  - intros Hp.
    split; [|split]; [intros v f w0 b|intros v eq t w0 b|intros v ne t w0 b]; intros n w1 Hn; (destruct b as [|x b]; cbn in Hn;
      [injection Hn as <- <-; split; [exists 1; reflexivity|]; exists 1; split; [apply Hp|lia]|]).
    + destruct (f x w0) as [[[|]|] w2]; discriminate.
    + destruct (eq (t, x) w0) as [[[|]|] w2]; discriminate.
    + destruct (ne (t, x) w0) as [[[|]|] w2]; discriminate.
Qed.
Print Assumptions C79_decisive.

(** Items up to a 0, with an end that counts its calls. *)
Definition C79_until : sparser nat nat (list nat) (error nat) := many_till_w 9 (vec_collector nat) (lifted any) (satisfy_w false (fun c w => (Some (c =? 0), S w))).
Example C79_until_keeping : keeping C79_until.
Proof.
  eapply k_ext with (p := bmany_till_w 9 (vec_collector nat) (lifted any) (satisfy_w false (fun c w => (Some (c =? 0), S w))) RFull); [|reflexivity].
  apply k_bmany_till; [apply vec_exhausts| |apply k_lifted; apply s_any|apply k_satisfy].
  apply (@C79_decisive nat nat nat unit (error nat) unit (lifted any)). reflexivity.
Qed.
Example C79_until_runs : C79_until 0 (mkInput false [4; 5; 0; 6]) = (Data (mkInput false [6]) [4; 5], 3) /\ C79_until 0 (mkInput false [4; 5]) = (Incomplete 1, 2).
Proof. split; vm_compute; reflexivity. Qed.

(** An end parser which is undecided at first and decides when asked again, as happens at the end of a range: then more input revises the
    answer, though items are undecided where the end is. *)
Definition C79_fickle : sparser bool nat unit (error nat) := fun w i =>
  if w then (ret tt i, w) else match buf i with [] => (incomplete 1 i, true) | _ => (err EPlain i, w) end.
Theorem C79_again_refuted : let end_ := C79_fickle in let p := lifted any in
  firm end_ /\ (forall w, well_behaved (fun i => fst (end_ w i))) /\
  (forall w b n w1, end_ w (mkInput false b) = (Incomplete n, w1) -> exists m, fst (p w1 (mkInput false b)) = Incomplete m /\ m <= n) /\
  ~ firm (bmany_till_w 9 (vec_collector nat) (p : sparser bool nat nat (error nat)) end_ (RRange 0 1)).
Proof.
  cbn zeta. split; [|split; [|split]].
  - intros [|] [|x b] l c; cbn; try reflexivity. intros -> Hc. destruct c as [|y c]; [exists 1; reflexivity|cbn in Hc; lia].
  - intros [|] [l [|x b]]; cbn; try lia; try (split; [reflexivity|]); exists []; reflexivity.
  - intros [|] [|x b] n w1 H; cbn in H; try discriminate. injection H as <- <-. exists 1. split; [reflexivity|lia].
  - intros H. specialize (H false [] false [5]). vm_compute in H. discriminate.
Qed.
Print Assumptions C79_again_refuted.
