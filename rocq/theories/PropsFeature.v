(** Property theorems C46. *)
From Coq Require Import List Bool Arith ZArith Lia.
From Coq.Strings Require Import Byte.
From Verif Require Import Base Parsers Combinators Ascii Buffer Stream Http SpecBase SpecSafe SpecBuffer SpecStream SpecFeature
  SafeProofs BufferProofs StreamProofs SimProofs FeatureProofs FeatureStreamProofs PropsStream.
Import ListNotations.

Set Implicit Arguments.

(** * C46: the feature verbose_error changes error reports only *)

(** Every program text: the same value and position, the same request, the same panic; an error for an error, and where
    [string] is not used at the same place.  With [string] the plain build may stand further on. *)
Theorem C46_outcome : forall I strings T E (p : bool -> parser I T E), text strings p ->
  forall i, agree (place strings) (p true i) (p false i).
Proof. exact text_agree. Qed.
Print Assumptions C46_outcome.

Theorem C46_parse_only : forall I strings T E (p : bool -> parser I T E) b, text strings p ->
  (forall t, parse_only (p true) b = OOk t <-> parse_only (p false) b = OOk t) /\
  (forall n, parse_only (p true) b = OErr (PIncomplete n) <-> parse_only (p false) b = OErr (PIncomplete n)) /\
  (parse_only (p true) b = OPanic <-> parse_only (p false) b = OPanic) /\
  (forall u e, parse_only (p true) b = OErr (PErr u e) -> exists w f, parse_only (p false) b = OErr (PErr w f) /\ place strings u w) /\
  (forall w f, parse_only (p false) b = OErr (PErr w f) -> exists u e, parse_only (p true) b = OErr (PErr u e) /\ place strings u w).
Proof.
  intros I strings T E p b H. pose proof (text_agree H (mkInput true b)) as Ha. unfold parse_only.
  destruct (p true (mkInput true b)) as [i t|u e|n| |], (p false (mkInput true b)) as [j s|w f|m| |]; simpl in Ha; try contradiction;
    try (destruct Ha as [-> ->]); subst; repeat split; intros; try discriminate; try assumption; try reflexivity.
  - inversion H0; subst. eauto.
  - inversion H0; subst. eauto.
Qed.
Print Assumptions C46_parse_only.

(** One call on a stream, from any state: the same answer and the same state afterwards; except that with [string] both may report
    an error, at places as above. *)
Theorem C46_slice : forall I strings T E (p : bool -> parser I T E) s s1 r1 s2 r2, text strings p ->
  slice_parse (p true) s = Done (s1, r1) -> slice_parse (p false) s = Done (s2, r2) -> same_call strings (s1, r1) (s2, r2).
Proof. intros I strings T E p s s1 r1 s2 r2 H. apply slice_parse_agree. exact (text_agree H). Qed.
Theorem C46_source : forall I strings T E (p : bool -> parser I T E) St B (ds : data_source St I) (ops : buffer_ops I B) s s1 r1 s2 r2, text strings p ->
  src_parse ds ops (p true) s = Done (s1, r1) -> src_parse ds ops (p false) s = Done (s2, r2) -> same_call strings (s1, r1) (s2, r2).
Proof. intros I strings T E p St B ds ops s s1 r1 s2 r2 H. apply src_parse_agree. exact (text_agree H). Qed.
Print Assumptions C46_slice.
Print Assumptions C46_source.

(** Whole programs without [string], over a slice and over any source, buffer and fault schedule. *)
(** Missing: programs with [string] that go on after an error; false there ([C46_stream_refuted]). *)
Theorem C46_slice_program_partial : forall I T E (c1 c2 : script I T E), script_text c1 c2 -> forall s,
  same_run (Forall2 same_answer) (on_slice c1 s) (on_slice c2 s).
Proof. exact (@on_slice_same). Qed.
Theorem C46_source_program_partial : forall I T E St B (ds : data_source St I) (ops : buffer_ops I B) fuel (c1 c2 : script I T E), script_text c1 c2 ->
  forall st, same_run (Forall2 same_answer) (on_source ds ops fuel c1 st) (on_source ds ops fuel c2 st).
Proof. intros. apply on_source_same. assumption. Qed.
Print Assumptions C46_slice_program_partial.
Print Assumptions C46_source_program_partial.

(** With [string], if the program leaves the stream alone after a failed step that uses it: over a slice, and over either buffer in every state
    that a Source gets into. *)
Theorem C46_slice_stopping : forall I T E (c1 c2 : script I T E) data s, script_stops c1 c2 -> slice_reached data s ->
  same_run (Forall2 same_answer) (on_slice c1 s) (on_slice c2 s).
Proof. intros I T E c1 c2 data s Hc Hs. apply on_slice_stops; [exact Hc|]. destruct (slice_inv _ _ _ Hs) as [H1 H2]. rewrite H1. exact H2. Qed.
Theorem C46_fixed_stopping : forall St I T E (ds : data_source St I) size b0 s0 st out fuel (c1 c2 : script I T E), obeys ds ->
  fixed_with_size size = Done b0 -> history ds (fixed_ops I) anything s0 b0 st out -> script_stops c1 c2 ->
  same_run (Forall2 same_answer) (on_source ds (fixed_ops I) fuel c1 st) (on_source ds (fixed_ops I) fuel c2 st).
Proof.
  intros St I T E ds size b0 s0 st out fuel c1 c2 Ho Hb H Hc. destruct (fixed_fresh _ _ _ Hb) as (Hs & Hi & Hv).
  destruct (history_inv (fixed_queue size) Ho Hi Hv H) as [Hist _]. exact (on_source_stops (fixed_queue size) Ho fuel Hc st Hist).
Qed.
Theorem C46_growing_stopping : forall St I T E (ds : data_source St I) cap0 alloc limit s0 st out fuel (c1 c2 : script I T E), obeys ds ->
  history ds (growing_ops I) anything s0 (growing_with_limit cap0 alloc limit) st out -> script_stops c1 c2 ->
  same_run (Forall2 same_answer) (on_source ds (growing_ops I) fuel c1 st) (on_source ds (growing_ops I) fuel c2 st).
Proof.
  intros St I T E ds cap0 alloc limit s0 st out fuel c1 c2 Ho H Hc. destruct (@growing_new I cap0 alloc limit) as (Hi & Hv & _).
  destruct (history_inv growing_queue Ho Hi Hv H) as [Hist _]. exact (on_source_stops growing_queue Ho fuel Hc st Hist).
Qed.
Print Assumptions C46_slice_stopping.
Print Assumptions C46_fixed_stopping.
Print Assumptions C46_growing_stopping.
(** A keyword, and if it is there, an item. *)
Definition keyword_then_item (v : bool) : script nat (list nat) (error nat) :=
  Next (string v Nat.eqb [1; 2]) (fun r => match r with inl _ => Next (take 1) (fun _ => Stop) | inr _ => Stop end).
Example C46_case_stopping : script_stops (keyword_then_item true) (keyword_then_item false) /\
  on_slice (keyword_then_item true) (slice_new [1; 3; 4]) = Done [inr (SParseError [] (EString [1; 2]))] /\
  on_slice (keyword_then_item false) (slice_new [1; 3; 4]) = Done [inr (SParseError [] EPlain)] /\
  on_slice (keyword_then_item true) (slice_new [1; 2; 4]) = Done [inl [1; 2]; inl [4]].
Proof.
  split; [|repeat split; reflexivity].
  apply (@sp_next nat (list nat) (error nat) true (fun v => string v Nat.eqb [1; 2])); [apply x_string; reflexivity|apply built_well_behaved; apply b_string| |].
  - intros r1 r2 Hr _. destruct r1 as [t|x], r2 as [u|y]; try (destruct x; contradiction); try (destruct y; contradiction); [|constructor].
    apply (@sp_next nat (list nat) (error nat) false (fun _ => take 1)); [apply x_take|apply built_well_behaved; apply b_take|intros; constructor|discriminate].
  - intros _ e1 e2. split; reflexivity.
Qed.

(** With [string] a program over a stream can notice: after the failed [string "ab"] on "axy" the plain build stands behind
    the first item, the verbose one in front of it, and the next call sees different items. *)
Definition fails_then_takes (v : bool) : script nat (list nat) (error nat) :=
  Next (string v Nat.eqb [1; 2]) (fun _ => Next (take 1) (fun _ => Stop)).
Theorem C46_stream_refuted :
  text true (fun v => @string nat v Nat.eqb [1; 2]) /\
  on_slice (fails_then_takes true) (slice_new [1; 3; 4]) = Done [inr (SParseError [] (EString [1; 2])); inl [1]] /\
  on_slice (fails_then_takes false) (slice_new [1; 3; 4]) = Done [inr (SParseError [] EPlain); inl [3]].
Proof. split; [apply x_string; reflexivity|]. split; reflexivity. Qed.
Print Assumptions C46_stream_refuted.

(** * The programs of the crate *)

Lemma x_stmt : forall T U (p : bool -> u8_parser T) (k : bool -> T -> u8_parser U),
  text true p -> (forall t, text true (fun v => k v t)) -> text true (fun v => stmt (p v) (k v)).
Proof. intros T U p k Hp Hk. apply (x_bind (fun _ e => e) (fun v i t => k v t i)); auto. Qed.
Lemma x_end_of_line : text true end_of_line.
Proof. apply x_or; [|apply x_token]. apply x_stmt; [apply x_token|]. intros _. apply x_stmt; [apply x_token|]. intros _. apply x_ret. Qed.
Lemma x_http_version : text true http_version.
Proof. apply x_stmt; [apply x_string; reflexivity|]. intros _. apply x_take_while1. Qed.
Lemma x_request_line : text true request_line.
Proof. repeat (apply x_stmt; [first [apply x_take_while1|apply x_http_version]|intros ?]). apply x_ret. Qed.
Lemma x_message_header_line : text true message_header_line.
Proof. repeat (apply x_stmt; [first [apply x_take_while1|apply x_take_till|apply x_end_of_line]|intros ?]). apply x_ret. Qed.
Lemma x_message_header : forall fuel, text true (fun v => message_header v fuel).
Proof.
  intros fuel. apply x_stmt; [apply x_take_while1|intros ?]. apply x_stmt; [apply x_token|intros ?]. apply x_stmt; [|intros ?; apply x_ret].
  apply (x_bmany fuel (vec_collector (list byte)) (RFrom 1) tt (fun v => pure (message_header_line v))); [|reflexivity]. intros ?. apply x_message_header_line.
Qed.
Lemma x_request_fuel : forall fuel, text true (fun v => request_fuel v fuel).
Proof.
  intros fuel. apply x_stmt; [apply x_request_line|intros ?]. apply x_stmt; [apply x_end_of_line|intros ?]. apply x_stmt.
  - apply (x_bmany fuel (vec_collector header_t) RFull tt (fun v => pure (message_header v fuel))); [|reflexivity]. intros ?. apply x_message_header.
  - intros ?. apply x_stmt; [apply x_end_of_line|intros ?]. apply x_ret.
Qed.

(** The HTTP example prints the same number, or panics as well, whatever the file and however it is read. *)
Theorem C46_http : forall St (ds : data_source St byte) fuel file, http_main true ds fuel file = http_main false ds fuel file.
Proof.
  intros St ds fuel file. unfold http_main. destruct (fixed_with_size default_buffer_size) as [b0| | |]; simpl; auto.
  generalize (src_with_buffer file b0) as st. generalize 0 as n. induction fuel as [|fuel IH]; intros n st; [reflexivity|].
  cbn [main_loop]. unfold src_parse.
  destruct (if src_incomplete st && src_auto st then _ else _) as [[st' [f|f]]| | |]; cbn [run_bind]; auto.
  destruct (src_is_empty (fixed_ops byte) st') as [[|]| | |]; cbn [run_bind]; auto.
  destruct (op_deref (fixed_ops byte) (src_buffer st')) as [d| | |]; cbn [run_bind]; auto.
  set (i := mkInput (src_eoi st') d).
  assert (Ha : agree (place true) (request true i) (request false i)) by exact (text_agree (x_request_fuel (length (buf i) + 2)) i).
  destruct (request true i) as [j v|b e|m| |], (request false i) as [j' v'|b' e'|m'| |]; simpl in Ha; try contradiction; auto.
  - destruct Ha as [-> ->]. destruct (op_len (fixed_ops byte) (src_buffer st')) as [l| | |]; cbn [run_bind]; auto.
    destruct (usize_sub l _) as [k| | |]; cbn [run_bind]; auto. destruct (op_consume (fixed_ops byte) (src_buffer st') k) as [x| | |]; cbn [run_bind]; auto.
  - cbn [fixed_ops op_len op_consume]. unfold fixed_len. destruct (usize_sub (f_populated (src_buffer st')) (f_used (src_buffer st'))) as [l| | |]; cbn [run_bind]; auto.
    transitivity (@Panicked nat); [|symmetry].
    + unfold usize_sub. destruct (length b <=? l); cbn [run_bind]; auto. unfold fixed_consume, assert.
      destruct (_ <=? f_populated _); reflexivity.
    + unfold usize_sub. destruct (length b' <=? l); cbn [run_bind]; auto. unfold fixed_consume, assert.
      destruct (_ <=? f_populated _); reflexivity.
  - subst m'. destruct (op_len (fixed_ops byte) (src_buffer st')) as [l| | |]; cbn [run_bind]; auto. destruct (src_eoi st'); cbn [run_bind]; auto.
Qed.
Print Assumptions C46_http.

(** * Concrete cases *)

(** Numbers with a sign, separated by commas, and a bad end. *)
Definition numbers (v : bool) : parser byte (list Z) (error byte) :=
  fun i => sep_by1 9 (vec_collector Z) (fun e : error byte => e) tt tt (pure (signed v false (mkInt 32 true) (decimal v false (mkInt 32 true))))
             (pure (token v byte_eqb ","%byte)) i.
Example C46_numbers_text : text false numbers.
Proof.
  apply (x_sep_by1 9 (vec_collector Z) (fun _ (e : error byte) => e) tt tt (fun v => pure (signed v false (mkInt 32 true) (decimal v false (mkInt 32 true)))) (fun v => pure (token v byte_eqb ","%byte)));
    try reflexivity; intros ?; [|apply x_token].
  apply (x_bind (fun _ (e : error byte) => e)
    (fun v i sign => match decimal v false (mkInt 32 true) i with
                     | Data j num => match int_result (mkInt 32 true) false (sign * num)%Z with Some v => Data j v | None => Panic end
                     | r => r end)
    (p := fun v => option_ (fun i => map (fun s => if byte_eqb s "+" then 1%Z else (-1)%Z) (satisfy v (fun c => byte_eqb c "-" || byte_eqb c "+") i)) 1%Z)).
  - apply x_option. apply x_map. apply x_satisfy.
  - intros sign. apply x_ext with (p := fun v i => bind (fun e : error byte => e) (decimal v false (mkInt 32 true) i)
      (fun j num => match int_result (mkInt 32 true) false (sign * num)%Z with Some v => ret v j | None => Panic end)).
    + apply (x_bind (fun _ (e : error byte) => e) (p := fun v => decimal v false (mkInt 32 true))).
      * apply (x_bind (fun _ (e : error byte) => e) (p := fun v => take_while1 v is_digit)); [apply x_take_while1|].
        intros t. destruct (to_decimal false (mkInt 32 true) t); [apply x_ret|apply x_panic].
      * intros num. destruct (int_result _ _ _); [apply x_ret|apply x_panic].
    + intros v i. destruct (decimal v false (mkInt 32 true) i) as [j num|b e|n| |]; try reflexivity.
      simpl. destruct (int_result _ _ _); reflexivity.
Qed.
Example C46_numbers_runs :
  numbers true (mkInput true ["-"; "7"; ","; "x"]%byte) = Data (mkInput true [","; "x"]%byte) [(-7)%Z] /\
  numbers false (mkInput true ["-"; "7"; ","; "x"]%byte) = Data (mkInput true [","; "x"]%byte) [(-7)%Z] /\
  numbers true (mkInput true ["y"]%byte) = Error ["y"]%byte Unexpected /\
  numbers false (mkInput true ["y"]%byte) = Error ["y"]%byte EPlain.
Proof. repeat split; vm_compute; reflexivity. Qed.

(** A program that goes on after an error. *)
Definition keeps_going (v : bool) : script nat nat (error nat) :=
  Next (token v Nat.eqb 1) (fun r => match r with inl _ => Stop | inr _ => Next any (fun _ => Stop) end).
Example C46_keeps_going : script_text (keeps_going true) (keeps_going false).
Proof.
  apply (@st_next nat nat (error nat) (fun v => token v Nat.eqb 1)); [apply x_token|]. intros r1 r2 Hr.
  destruct r1 as [t|[b e|n|n| |]], r2 as [u|[c f|m|m| |]]; simpl in Hr; try contradiction; try constructor;
    apply (@st_next nat nat (error nat) (fun _ => any)); try apply x_any; intros; constructor.
Qed.
Example C46_keeps_going_runs : on_slice (keeps_going true) (slice_new [2; 3]) = Done [inr (SParseError [] (Expected 1)); inl 2] /\
  on_slice (keeps_going false) (slice_new [2; 3]) = Done [inr (SParseError [] EPlain); inl 2].
Proof. split; reflexivity. Qed.
Example C46_http_runs : http_main true (read_data_source chunk_read) 9 [Some ["G"; " "; "/"; " "; "H"; "T"; "X"]%byte] = Panicked /\
  http_main false (read_data_source chunk_read) 9 [Some (["G"; " "; "/"; " "; "H"; "T"; "T"; "P"; "/"; "1"; x0a; x0a]%byte)] = Done 1.
Proof. split; vm_compute; reflexivity. Qed.
