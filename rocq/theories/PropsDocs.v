(** Property C83: the programs in the documentation, on every input. *)
From Coq Require Import List Bool Arith ZArith Lia.
From Coq.Init Require Import Byte.
From Coq.Strings Require Import Byte.
From Verif Require Import Base Parsers Combinators Ascii SpecBase SpecSafe SpecAscii Macro SpecMacro Http Docs SpecDocs DocsProofs.
From Verif Require Import Buffer Stream SpecBuffer SpecStream SimProofs StreamProofs SafeProofs StableProofs PropsSafe PropsStream PropsMacroHttp.
Import ListNotations.
Close Scope Z_scope.

(** * The name: exactly the readings, on every slice *)
Theorem C83_name : forall verbose l s o, doc_name verbose (mkInput l s) = o <-> name_reading verbose l s o.
Proof. exact name_exact. Qed.
(** So the answer of [parse_only] is a name exactly if the text is one word without a space, a space, and one or more bytes up to a line end. *)
Theorem C83_name_ok : forall verbose s f w,
  parse_only (doc_name verbose) s = OOk (mkName f w) <->
  f <> [] /\ ~ In " "%byte f /\ w <> [] /\ ~ In x0a w /\ exists r, s = f ++ " "%byte :: w ++ r /\ (r = [] \/ exists r', r = x0a :: r').
Proof.
  intros verbose s f w. unfold parse_only, input_new. split.
  - destruct (doc_name verbose (mkInput true s)) as [j v|b e|n| |] eqn:H; intros H'; inversion H'; subst; clear H'.
    apply name_exact in H. inversion H as [| | | | |f' w' [Hf Hs] [Hw Hn]|f' w' r [Hf Hs] [Hw Hn]]; subst.
    + repeat split; auto. exists []. rewrite app_nil_r. auto.
    + repeat split; auto. exists (x0a :: r). eauto.
  - intros (Hf & Hs & Hw & Hn & r & -> & [->|[r' ->]]).
    + rewrite app_nil_r. rewrite (name_reads (nr_open verbose true (conj Hf Hs) (conj Hw Hn))). reflexivity.
    + rewrite (name_reads (nr_line verbose true r' (conj Hf Hs) (conj Hw Hn))). reflexivity.
Qed.
Print Assumptions C83_name.
Print Assumptions C83_name_ok.

(** * The address *)
(** In a debug build the address is read exactly if its four numbers fit into [u8]; leading zeros are allowed. *)
Theorem C83_ip_debug : forall verbose l s j q,
  parse_ip verbose true (mkInput l s) = Data j q <->
  exists d1 d2 d3 d4 r, s = address d1 d2 d3 d4 ++ r /\ Forall octet [d1; d2; d3; d4] /\ Forall small [d1; d2; d3; d4] /\
    j = mkInput l r /\ q = (number d1, number d2, number d3, number d4).
Proof.
  assert (V : forall d v, octet_value true d = Some v -> small d /\ v = number d).
  { intros d v. unfold octet_value, small. destruct (number d <=? 255)%Z eqn:H; intros E; inversion E. apply Z.leb_le in H. auto. }
  assert (V' : forall d, small d -> octet_value true d = Some (number d)).
  { intros d H. unfold octet_value. rewrite (proj2 (Z.leb_le _ _) H). reflexivity. }
  intros verbose l s j q. split.
  - intros H. destruct (ip_cases verbose true l s) as [(d1 & d2 & d3 & d4 & v1 & v2 & v3 & v4 & r & -> & H1 & H2 & H3 & H4 & V1 & V2 & V3 & V4)|[(gs & d & rest & _ & _ & _ & _ & _ & _ & _ & H')|[[n H']|(b & e & H')]]].
    2-4: rewrite H' in H; discriminate.
    rewrite (@ip_data verbose true l d1 d2 d3 d4 r v1 v2 v3 v4) in H by assumption. inversion H; subst.
    apply V in V1, V2, V3, V4. destruct V1 as [V1 ->], V2 as [V2 ->], V3 as [V3 ->], V4 as [V4 ->]. exists d1, d2, d3, d4, r. auto 12.
  - intros (d1 & d2 & d3 & d4 & r & -> & Ho & Hs & -> & ->).
    rewrite !Forall_cons_iff in Ho, Hs. destruct Ho as (H1 & H2 & H3 & H4 & _), Hs as (S1 & S2 & S3 & S4 & _).
    apply ip_data; auto.
Qed.
(** In a release build an address is read whatever its numbers are, each modulo 256. *)
Theorem C83_ip_release : forall verbose l s j q,
  parse_ip verbose false (mkInput l s) = Data j q <->
  exists d1 d2 d3 d4 r, s = address d1 d2 d3 d4 ++ r /\ Forall octet [d1; d2; d3; d4] /\
    j = mkInput l r /\ q = (number d1 mod 256, number d2 mod 256, number d3 mod 256, number d4 mod 256)%Z.
Proof.
  assert (V : forall d, octet_value false d = Some (number d mod 256)%Z).
  { intros d. unfold octet_value. pose proof (number_positive d). destruct (number d <=? 255)%Z eqn:E; [|reflexivity]. apply Z.leb_le in E. rewrite Z.mod_small by lia. reflexivity. }
  intros verbose l s j q. split.
  - intros H. destruct (ip_cases verbose false l s) as [(d1 & d2 & d3 & d4 & v1 & v2 & v3 & v4 & r & -> & H1 & H2 & H3 & H4 & V1 & V2 & V3 & V4)|[(gs & d & rest & _ & _ & _ & _ & _ & _ & _ & H')|[[n H']|(b & e & H')]]].
    2-4: rewrite H' in H; discriminate.
    rewrite (@ip_data verbose false l d1 d2 d3 d4 r v1 v2 v3 v4) in H by assumption. inversion H; subst.
    rewrite V in V1, V2, V3, V4. inversion V1; inversion V2; inversion V3; inversion V4. exists d1, d2, d3, d4, r. auto 12.
  - intros (d1 & d2 & d3 & d4 & r & -> & Ho & -> & ->).
    rewrite !Forall_cons_iff in Ho. destruct Ho as (H1 & H2 & H3 & H4 & _).
    apply ip_data; auto.
Qed.
(** It panics exactly in a debug build where, after octets which fit and their dots, a complete number does not fit. *)
Theorem C83_ip_panics : forall verbose checked l s,
  parse_ip verbose checked (mkInput l s) = Panic <->
  checked = true /\ exists gs d rest, s = ["i"; "p"; ":"]%byte ++ dotted gs ++ d ++ rest /\ length gs <= 3 /\
    Forall octet gs /\ Forall small gs /\ octet d /\ ~ small d /\ ends_number l rest.
Proof.
  intros verbose checked l s. split.
  - intros H. destruct (ip_cases verbose checked l s) as [(d1 & d2 & d3 & d4 & v1 & v2 & v3 & v4 & r & -> & H1 & H2 & H3 & H4 & V1 & V2 & V3 & V4)|[(gs & d & rest & Hs & Hl & Hg & Hv & Hd & Hn & He & _)|[[n H']|(b & e & H')]]].
    + rewrite (@ip_data verbose checked l d1 d2 d3 d4 r v1 v2 v3 v4) in H by assumption. discriminate.
    + assert (C : checked = true /\ ~ small d).
      { unfold octet_value in Hn. unfold small. destruct (number d <=? 255)%Z eqn:E; [discriminate|]. apply Z.leb_gt in E. destruct checked; [|discriminate]. split; [reflexivity|lia]. }
      destruct C as [-> C]. split; [reflexivity|]. exists gs, d, rest. repeat split; auto; try apply Hd.
      eapply Forall_impl; [|exact Hv]. intros g Hg'. unfold octet_value in Hg'. unfold small. destruct (number g <=? 255)%Z eqn:E; [apply Z.leb_le; assumption|congruence].
    + rewrite H' in H. discriminate.
    + rewrite H' in H. discriminate.
  - intros (-> & gs & d & rest & -> & Hl & Ho & Hs & Hd & Hn & He).
    assert (N : octet_value true d = None).
    { unfold octet_value. destruct (number d <=? 255)%Z eqn:E; [|reflexivity]. apply Z.leb_le in E. contradiction. }
    assert (V : forall g, small g -> octet_value true g = Some (number g)).
    { intros g H. unfold octet_value. rewrite (proj2 (Z.leb_le _ _) H). reflexivity. }
    assert (D : forall verbose l d rest, octet d -> octet_value true d = None -> ends_number l rest ->
       skipping (decimal verbose true u8) (token verbose byte_eqb "."%byte) (mkInput l (d ++ rest)) = Panic).
    { intros vb l' d' rest' H1 H2 H3. unfold skipping, stmt. rewrite decimal_octet by assumption. rewrite H2. reflexivity. }
    unfold parse_ip, stmt. fold ip_word. rewrite string_here. rewrite bind_data.
    destruct Ho as [|g1 gs H1 Ho]; [rewrite (D _ _ d rest) by assumption; reflexivity|].
    apply Forall_cons_iff in Hs. destruct Hs as [S1 U1]. unfold dotted. cbn [List.map concat]. rewrite <- !app_assoc. cbn [app].
    rewrite dotted_octet, (V _ S1), bind_data by assumption.
    destruct Ho as [|g2 gs H2 Ho]; [cbn [List.map concat app]; rewrite (D _ _ d rest) by assumption; reflexivity|].
    apply Forall_cons_iff in U1. destruct U1 as [S2 U2]. cbn [List.map concat]. rewrite <- !app_assoc. cbn [app].
    rewrite dotted_octet, (V _ S2), bind_data by assumption.
    destruct Ho as [|g3 gs H3 Ho]; [cbn [List.map concat app]; rewrite (D _ _ d rest) by assumption; reflexivity|].
    apply Forall_cons_iff in U2. destruct U2 as [S3 U3]. cbn [List.map concat]. rewrite <- !app_assoc. cbn [app].
    rewrite dotted_octet, (V _ S3), bind_data by assumption.
    destruct gs; [|cbn in Hl; lia]. cbn [List.map concat app]. rewrite decimal_octet, N by assumption. reflexivity.
Qed.
(** "Parsing an IP-address": numbers above 255 are not rejected by an error. *)
Theorem C83_ip_refuted :
  parse_only (parse_ip true true) ["i"; "p"; ":"; "2"; "5"; "6"; "."; "0"; "."; "0"; "."; "1"; ";"]%byte = OPanic /\
  parse_only (parse_ip true false) ["i"; "p"; ":"; "2"; "5"; "6"; "."; "0"; "."; "0"; "."; "1"; ";"]%byte = OOk (0, 0, 0, 1)%Z.
Proof. split; reflexivity. Qed.
Print Assumptions C83_ip_debug.
Print Assumptions C83_ip_release.
Print Assumptions C83_ip_panics.
Print Assumptions C83_ip_refuted.

(** * The severity *)
Theorem C83_log : forall verbose l s o, log_severity verbose (mkInput l s) = o <-> log_reading verbose l s o.
Proof. exact log_exact. Qed.
Theorem C83_log_ok : forall verbose s v,
  parse_only (log_severity verbose) s = OOk v <-> exists w r, In (w, v) severities /\ s = w ++ r.
Proof.
  intros verbose s v. unfold parse_only, input_new. split.
  - destruct (log_severity verbose (mkInput true s)) as [j u|b e|n| |] eqn:H; intros H'; inversion H'; subst; clear H'.
    apply log_exact in H. inversion H as [w u' r Hin _| |s' n' _ _ _ Hv]; subst; [eauto|]. destruct verbose; discriminate.
  - intros (w & r & Hin & ->). rewrite (log_reads (@lr_word verbose true w v r Hin (or_introl eq_refl))). reflexivity.
Qed.
(** Over data which may continue, a complete severity of four letters is not reported until a fifth byte is there; *)
Theorem C83_log_waits : forall verbose w v, In (w, v) severities -> length w = 4 -> log_severity verbose (mkInput false w) = Incomplete 1.
Proof. intros verbose w v _ H. apply log_exact. replace 1 with (5 - length w) by lia. apply lr_short; [lia|auto]. Qed.
(** and four bytes or fewer which are no severity are said to be incomplete even where there is no more: the claim that an error is found is wrong. *)
Theorem C83_log_refuted : ~ (forall verbose s, ~ starts_with_severity s -> (forall w v, In (w, v) severities -> ~ exists r, r <> [] /\ w = s ++ r) ->
  exists b e, parse_only (log_severity verbose) s = OErr (PErr b e)).
Proof.
  intros H. destruct (H true ["X"%byte]) as (b & e & H').
  - intros (w & v & r & Hin & Hs). cbn in Hin. destruct Hin as [Hin|[Hin|[Hin|[Hin|[]]]]]; inversion Hin; subst; discriminate.
  - intros w v Hin (r & _ & Hr). cbn in Hin. destruct Hin as [Hin|[Hin|[Hin|[Hin|[]]]]]; inversion Hin; subst; discriminate.
  - discriminate.
Qed.
Print Assumptions C83_log.
Print Assumptions C83_log_ok.
Print Assumptions C83_log_waits.
Print Assumptions C83_log_refuted.

(** * Two digits and their sum: no overflow, in either build *)
Theorem C83_launch : forall verbose checked l s o, launch verbose checked (mkInput l s) = o <-> launch_reading verbose l s o.
Proof. exact launch_exact. Qed.
Theorem C83_launch_safe : forall verbose checked i, launch verbose checked i <> Panic.
Proof.
  intros verbose checked [l s] H. apply launch_exact in H. inversion H; destruct verbose; discriminate.
Qed.
Theorem C83_read_digit : forall verbose checked l s j x,
  read_digit verbose checked (mkInput l s) = Data j x <-> exists c r, s = c :: r /\ digit_value c = Some x /\ j = mkInput l r.
Proof.
  intros verbose checked l s j x. split.
  - destruct s as [|c r]; [discriminate|]. destruct (digit_value c) as [y|] eqn:Hc.
    + rewrite (@read_digit_here verbose checked l c y r Hc). intros H. inversion H; subst. eauto.
    + rewrite read_digit_not by (unfold a_digit; congruence). discriminate.
  - intros (c & r & -> & Hc & ->). apply read_digit_here. assumption.
Qed.
Print Assumptions C83_launch.
Print Assumptions C83_launch_safe.
Print Assumptions C83_read_digit.

(** * The first heading *)
Theorem C83_heading : forall verbose l s o, first_heading verbose (mkInput l s) = o <-> heading_reading verbose l s o.
Proof. exact heading_exact. Qed.
Print Assumptions C83_heading.

(** * [my_combinator]: "version of option() which also catches incomplete" *)
Theorem C83_my_combinator : forall I T E (f : parser I T E) d i,
  (forall n, last i = false -> f i = Incomplete n -> my_combinator f d i = Data i d /\ option_ f d i = Incomplete n) /\
  ((last i = true \/ forall n, f i <> Incomplete n) -> my_combinator f d i = option_ f d i).
Proof.
  intros I T E f d i. unfold my_combinator, option_. split.
  - intros n Hl Hf. rewrite Hf, Hl. auto.
  - intros H. destruct (f i) as [j v|b e|n| |]; try reflexivity. destruct H as [->|H]; [reflexivity|]. destruct (H n eq_refl).
Qed.
(** It answers without waiting for data, so the answer changes with what arrives: it is not fit for streams, as [option] is. *)
Theorem C83_my_combinator_refuted : forall I T E (f : parser I T E) d b c j v n,
  f (mkInput false b) = Incomplete n -> f (mkInput false (b ++ c)) = Data j v -> v <> d -> ~ stable (my_combinator f d).
Proof.
  intros I T E f d b c j v n H1 H2 Hv H. specialize (H b false c). unfold my_combinator in H. rewrite H1, H2 in H. inversion H. contradiction.
Qed.
Print Assumptions C83_my_combinator.
Print Assumptions C83_my_combinator_refuted.

(** * On streams *)
Lemma docs_safe : forall verbose checked,
  safe (doc_name verbose) /\ safe (parse_ip verbose checked) /\ safe (log_severity verbose) /\ safe (launch verbose checked) /\ safe (first_heading verbose).
Proof.
  assert (S : forall T U (p : u8_parser T) (k : T -> u8_parser U), safe p -> (forall t, safe (k t)) -> safe (stmt p k)).
  { intros T U p k Hp Hk. unfold stmt. apply s_bind with (f := fun i t => k t i); assumption. }
  assert (K : forall T U (p : u8_parser T) (q : u8_parser U), safe p -> safe q -> safe (skipping p q)).
  { intros T U p q Hp Hq. unfold skipping. apply S; [assumption|]. intros t. apply s_map. assumption. }
  intros verbose checked. pose proof (C25_ascii verbose checked u8) as (_ & _ & D & _).
  repeat split.
  - repeat (apply S; [constructor|intros ?]). constructor.
  - apply S; [constructor|intros _]. repeat (apply S; [apply K; [assumption|constructor]|intros ?]). apply S; [assumption|intros ?]. apply S; [constructor|intros _]. constructor.
  - repeat apply s_or; apply s_map; constructor.
  - assert (R : safe (read_digit verbose checked)).
    { apply s_ext with (p := stmt (satisfy verbose zero_to_nine) (fun c => match int_result u8 checked (Z.of_N (Ascii.code c) - Z.of_N (Ascii.code "0"%byte)) with Some v => ret v | None => fun _ => Panic end)).
      - apply S; [constructor|]. intros c. destruct (int_result _ _ _); constructor.
      - intros i. unfold stmt, read_digit. destruct (satisfy _ _ i) as [j c| | | |]; cbn [bind]; try reflexivity. destruct (int_result _ _ _); reflexivity. }
    apply S; [assumption|intros a]. apply S; [assumption|intros b]. apply S; [constructor|intros _].
    apply s_ext with (p := match int_result u8 checked (a + b) with Some c => ret (a, b, c) | None => fun _ => Panic end); [destruct (int_result _ _ _); constructor|].
    intros i. destruct (int_result _ _ _); reflexivity.
  - repeat (apply S; [constructor|intros _]). constructor.
Qed.
Lemma docs_decide : forall verbose checked i,
  doc_name verbose i <> NoFuel /\ parse_ip verbose checked i <> NoFuel /\ log_severity verbose i <> NoFuel /\ launch verbose checked i <> NoFuel /\ first_heading verbose i <> NoFuel.
Proof.
  intros verbose checked [l s]. repeat split; intros H.
  - apply name_exact in H. inversion H. destruct l; discriminate.
  - destruct (ip_cases verbose checked l s) as [(d1 & d2 & d3 & d4 & v1 & v2 & v3 & v4 & r & -> & H1 & H2 & H3 & H4 & V1 & V2 & V3 & V4)|[(gs & d & rest & _ & _ & _ & _ & _ & _ & _ & H')|[[n H']|(b & e & H')]]].
    2-4: congruence. rewrite (@ip_data verbose checked l d1 d2 d3 d4 r v1 v2 v3 v4) in H by assumption. discriminate.
  - apply log_exact in H. inversion H. destruct verbose; discriminate.
  - apply launch_exact in H. inversion H; destruct verbose; discriminate.
  - apply heading_exact in H. inversion H. destruct l; discriminate.
Qed.
(** The programs need input. *)
Lemma docs_need : forall verbose checked,
  (exists n, doc_name verbose (mkInput false []) = Incomplete n) /\ (exists n, parse_ip verbose checked (mkInput false []) = Incomplete n) /\
  (exists n, log_severity verbose (mkInput false []) = Incomplete n) /\ (exists n, launch verbose checked (mkInput false []) = Incomplete n) /\
  (exists n, first_heading verbose (mkInput false []) = Incomplete n).
Proof. intros. repeat split; eexists; reflexivity. Qed.

(** Each of them, run once: what a Source over a growing buffer answers in the end, for any source of data with any chunks and errors, is what it says
    of all the data. *)
Definition answer {T} (p : u8_parser T) (data : list byte) : run (list (sres byte T (error byte))) :=
  match p (mkInput true data) with
  | Data _ v => Done [inl v]
  | Error _ e => Done [inr (SParseError [] e)]
  | Incomplete n => Done [inr (SIncomplete (n + length data))]
  | Panic => Panicked
  | NoFuel => Stuck
  end.
Lemma once_slice : forall T (p : u8_parser T) data, safe p -> data <> [] -> on_slice (Next p (fun _ => Stop)) (slice_new data) = answer p data.
Proof.
  intros T p data Hp Hd. unfold answer. pose proof (built_well_behaved (safe_built Hp) (mkInput true data)) as W. unfold honest in W. cbn [last buf] in W. cbn [on_slice]. unfold slice_parse, slice_is_empty, slice_len, slice_new, usize_sub. cbn [ss_pos ss_slice skipn run_bind].
  rewrite Nat.sub_0_r. cbn [Nat.leb run_bind]. destruct (length data =? 0) eqn:E; [apply Nat.eqb_eq, length_zero_iff_nil in E; contradiction|].
  destruct (p (mkInput true data)) as [j v|b e|n| |]; cbn [run_bind]; try reflexivity.
  - destruct W as [_ W]. rewrite (proj2 (Nat.leb_le _ _)) by (destruct W as [pre ->]; rewrite app_length; lia). reflexivity.
  - rewrite (proj2 (Nat.leb_le _ _)) by (destruct W as [pre ->]; rewrite app_length; lia). reflexivity.
Qed.
Theorem C83_streams : forall verbose checked St (ds : data_source St byte) R alloc s data e fuel, obeys ds -> delivers ds R -> R s data e -> data <> [] ->
  2 * length data + e + 2 <= fuel ->
  let once T (p : u8_parser T) := on_source ds (growing_ops byte) fuel (Next p (fun _ => Stop)) (src_with_buffer s (growing_with_limit 0 alloc 0)) = answer p data in
  once _ (doc_name verbose) /\ once _ (parse_ip verbose checked) /\ once _ (log_severity verbose) /\ once _ (launch verbose checked) /\ once _ (first_heading verbose).
Proof.
  intros verbose checked St ds R alloc s data e fuel Ho HR Hs Hd Hf. cbv beta zeta.
  destruct (docs_safe verbose checked) as (S1 & S2 & S3 & S4 & S5). destruct (docs_need verbose checked) as (N1 & N2 & N3 & N4 & N5).
  assert (G : forall T (p : u8_parser T), safe p -> (forall i, p i <> NoFuel) -> (exists n, p (mkInput false []) = Incomplete n) ->
    on_source ds (growing_ops byte) fuel (Next p (fun _ => Stop)) (src_with_buffer s (growing_with_limit 0 alloc 0)) = answer p data).
  { intros T p H1 H2 H3. rewrite <- once_slice by assumption. eapply C31_safe; eauto. apply safe_next; auto. intros r. apply safe_stop. }
  repeat split; apply G; auto; intros i; apply (docs_decide verbose checked i).
Qed.
(** So over a stream: names, addresses, severities, headings. *)
Theorem C83_stream_values : forall verbose checked St (ds : data_source St byte) R alloc s data e fuel, obeys ds -> delivers ds R -> R s data e ->
  2 * length data + e + 2 <= fuel ->
  let once T (p : u8_parser T) := on_source ds (growing_ops byte) fuel (Next p (fun _ => Stop)) (src_with_buffer s (growing_with_limit 0 alloc 0)) in
  (forall f w r, word_without " " f -> word_without x0a w -> data = f ++ " "%byte :: w ++ x0a :: r -> once _ (doc_name verbose) = Done [inl (mkName f w)]) /\
  (forall d1 d2 d3 d4 r, Forall octet [d1; d2; d3; d4] -> Forall small [d1; d2; d3; d4] -> data = address d1 d2 d3 d4 ++ r ->
    once _ (parse_ip verbose checked) = Done [inl (number d1, number d2, number d3, number d4)]) /\
  (forall w v r, In (w, v) severities -> data = w ++ r -> once _ (log_severity verbose) = Done [inl v]) /\
  (forall p ws t c r, ~ In "#"%byte p -> ws <> [] -> Forall blank ws -> title t -> line_end c -> data = p ++ "#"%byte :: ws ++ t ++ c :: r ->
    once _ (first_heading verbose) = Done [inl t]).
Proof.
  intros verbose checked St ds R alloc s data e fuel Ho HR Hs Hf. cbv beta zeta.
  assert (G : data <> [] -> _) by exact (fun Hd => C83_streams verbose checked St ds R alloc s data e fuel Ho HR Hs Hd Hf). cbv beta zeta in G.
  repeat split.
  - intros f w r Hfw Hw Hd. rewrite (proj1 (G ltac:(subst data; destruct f; discriminate))). unfold answer. rewrite Hd, (name_reads (nr_line verbose true r Hfw Hw)). reflexivity.
  - intros d1 d2 d3 d4 r Hoc Hsm Hd. rewrite (proj1 (proj2 (G ltac:(subst data; discriminate)))). unfold answer. rewrite Hd.
    rewrite !Forall_cons_iff in Hoc, Hsm. destruct Hoc as (H1 & H2 & H3 & H4 & _), Hsm as (S1 & S2 & S3 & S4 & _).
    erewrite (@ip_data verbose checked true d1 d2 d3 d4 r); eauto; unfold octet_value; rewrite (proj2 (Z.leb_le _ _)) by assumption; reflexivity.
  - intros w v r Hin Hd. assert (Hne : data <> []).
    { subst data. cbn in Hin. destruct Hin as [H|[H|[H|[H|[]]]]]; inversion H; discriminate. }
    rewrite (proj1 (proj2 (proj2 (G Hne)))). unfold answer. rewrite Hd, (log_reads (@lr_word verbose true w v r Hin (or_introl eq_refl))). reflexivity.
  - intros p ws t c r Hp Hn Hw Ht Hc Hd. rewrite (proj2 (proj2 (proj2 (proj2 (G ltac:(subst data; destruct p; discriminate)))))). unfold answer.
    rewrite Hd, (heading_reads (@hr_line verbose true p ws t c r Hp Hn Hw Ht Hc)). reflexivity.
Qed.
(** The heading with the buffer of the documentation, of a fixed size: the text up to the end of its line must fit. *)
Theorem C83_heading_fixed : forall verbose St (ds : data_source St byte) R size b0 s p ws t c r e fuel, obeys ds -> delivers ds R ->
  ~ In "#"%byte p -> ws <> [] -> Forall blank ws -> title t -> line_end c -> R s (p ++ "#"%byte :: ws ++ t ++ c :: r) e ->
  fixed_with_size size = Done b0 -> length (p ++ "#"%byte :: ws ++ t ++ [c]) <= size -> 2 * length (p ++ "#"%byte :: ws ++ t ++ c :: r) + e + 2 <= fuel ->
  on_source ds (fixed_ops byte) fuel (Next (first_heading verbose) (fun _ => Stop)) (src_with_buffer s b0) = Done [inl t].
Proof.
  intros verbose St ds R size b0 s p ws t c r e fuel Ho HR Hp Hn Hw Ht Hc Hs Hb Hsz Hf. destruct (docs_safe verbose true) as (_ & _ & _ & _ & S5).
  set (data := p ++ "#"%byte :: ws ++ t ++ c :: r) in *. assert (Hd : data <> []) by (unfold data; destruct p; discriminate).
  assert (A : answer (first_heading verbose) data = Done [inl t]) by (unfold answer, data; rewrite (heading_reads (@hr_line verbose true p ws t c r Hp Hn Hw Ht Hc)); reflexivity).
  rewrite <- A, <- once_slice by assumption. eapply C31_fixed; eauto. constructor; [|intros; constructor].
  apply C31_safe_suits; [assumption|intros i; apply (docs_decide verbose true i)|intros _; apply (docs_need verbose true)|].
  cbn [slice_new ss_pos ss_slice skipn]. intros b c' n Hbc Hinc.
  assert (n = 1) as ->. { apply heading_exact in Hinc. inversion Hinc; auto. }
  assert (Hlt : length b < length (p ++ "#"%byte :: ws ++ t ++ [c])).
  { destruct (le_lt_dec (length (p ++ "#"%byte :: ws ++ t ++ [c])) (length b)) as [Hle|Hlt]; [|assumption]. exfalso.
    assert (Hpre : exists b', b = (p ++ "#"%byte :: ws ++ t ++ [c]) ++ b').
    { assert (Hdata : data = (p ++ "#"%byte :: ws ++ t ++ [c]) ++ r) by (unfold data; rewrite <- !app_assoc; cbn [app]; rewrite <- !app_assoc; reflexivity).
      exists (skipn (length (p ++ "#"%byte :: ws ++ t ++ [c])) b). rewrite <- (firstn_skipn (length (p ++ "#"%byte :: ws ++ t ++ [c])) b) at 1. f_equal.
      transitivity (firstn (length (p ++ "#"%byte :: ws ++ t ++ [c])) (b ++ c')).
      - rewrite firstn_app, (proj2 (Nat.sub_0_le _ _) Hle). cbn [firstn]. rewrite app_nil_r. reflexivity.
      - rewrite <- Hbc, Hdata. rewrite firstn_app, Nat.sub_diag, firstn_all. cbn [firstn]. apply app_nil_r. }
    destruct Hpre as [b' ->]. rewrite <- !app_assoc in Hinc. cbn [app] in Hinc. rewrite <- !app_assoc in Hinc. cbn [app] in Hinc.
    rewrite (heading_reads (@hr_line verbose false p ws t c b' Hp Hn Hw Ht Hc)) in Hinc. discriminate. }
  etransitivity; [apply Nat.le_min_l|]. lia.
Qed.
Print Assumptions C83_streams.
Print Assumptions C83_stream_values.
Print Assumptions C83_heading_fixed.

(** * The text: [parse!] makes these parsers of the programs as they are printed *)
Lemma doc_rustc_lawful : SpecMacro.lawful doc_rustc.
Proof.
  split; cbn.
  - reflexivity.
  - intros [|[] [|[] v]] p rest H; inversion H; reflexivity.
  - discriminate.
  - reflexivity.
  - intros ts t u e H. repeat match type of H with context [match ?x with _ => _ end] => destruct x; try discriminate end. all: inversion H; subst; try reflexivity; cbn; intuition discriminate.
  - intros [|[] [|[] [|]]] H; try discriminate; cbn; intuition discriminate.
  - intros ts x H. repeat match type of H with context [match ?x with _ => _ end] => destruct x; try discriminate end. all: cbn; intuition discriminate.
  - reflexivity.
Qed.

Lemma bind_values : forall I T U E (r : pres I T E) (k k' : input I -> T -> pres I U E), (forall i t, r = Data i t -> k i t = k' i t) ->
  bind (fun e => e) r k = bind (fun e => e) r k'.
Proof. intros. destruct r; cbn; auto. rewrite H; reflexivity. Qed.
Lemma map_under : forall I T U V E (f : U -> V) (g : T -> U) (r : pres I T E), map f (map g r) = map (fun t => f (g t)) r.
Proof. intros. destruct r; reflexivity. Qed.

Ltac launched :=
  rewrite bind_map, map_bind; apply bind_values; intros i1 a Ha; rewrite bind_map, map_bind; apply bind_values; intros i2 b Hb;
  rewrite bind_map, map_bind; apply bind_ext; intros i3 w; rewrite sum_fits; [reflexivity| |];
  match goal with H : read_digit _ _ ?i = Data _ ?x |- (0 <= ?x <= 9)%Z => destruct i; apply C83_read_digit in H; destruct H as (c & r & _ & H & _); exact (digit_small _ H) end.

Theorem C83_text : forall verbose checked,
  SpecMacro.lawful doc_rustc /\
  (exists p, dinvoke verbose checked t_name = Some p /\ forall i, p i = map DName (doc_name verbose i)) /\
  (exists p, dinvoke verbose checked t_name_typed = Some p /\ forall i, p i = map DName (doc_name verbose i)) /\
  (exists p, dinvoke verbose checked t_ip = Some p /\ forall i, p i = map DQuad (parse_ip verbose checked i)) /\
  (exists p, dinvoke verbose checked t_log = Some p /\ forall i, p i = map DLog (log_severity verbose i)) /\
  (exists p, dinvoke verbose checked t_launch = Some p /\ forall i, p i = map DTriple (launch verbose checked i)) /\
  (exists p, dinvoke verbose checked t_launch_readme = Some p /\ forall i, p i = map DTriple (launch verbose checked i)) /\
  (exists p, dinvoke verbose checked t_heading = Some p /\ forall i, p i = map DBytes (first_heading verbose i)).
Proof.
  intros verbose checked. split; [exact doc_rustc_lawful|].
  assert (E : forall ts c, expand_parse doc_rustc (Some ts) = Some c -> dinvoke verbose checked ts = Some (fun i => eval (dmeaning verbose checked) c [] [i])).
  { intros ts c H. unfold dinvoke. rewrite H. reflexivity. }
  repeat split; eexists; (split; [apply E; vm_compute; reflexivity|]); intros i.
  - unfold doc_name, stmt. cbn -[take_while1 token bind map]. unfold dlift. statements. reflexivity.
  - unfold doc_name, stmt. cbn -[take_while1 token bind map]. unfold dlift. statements. reflexivity.
  - unfold parse_ip, skipping, stmt. cbn -[take_while1 token decimal string bind map]. unfold dlift.
    assert (K : forall T U V (f : T -> dval) (g : U -> dval) (h : V -> dval) (p : u8_parser T) (q : u8_parser U) i (k : input byte -> dval -> pres byte dval (error byte)) k',
       (forall i t, k i (f t) = map h (k' i t)) ->
       bind (fun e => e) (bind (fun e => e) (map f (p i)) (fun i l => map (fun _ => l) (map g (q i)))) k =
       map h (bind (fun e => e) (bind (fun e => e) (p i) (fun i l => map (fun _ => l) (q i))) k')).
    { intros T U V f g h p q i' k k' H. destruct (p i') as [j v| | | |]; try reflexivity. cbn. destruct (q j) as [j' u| | | |]; try reflexivity. cbn.
      rewrite H. destruct (k' j' v); reflexivity. }
    rewrite bind_map, map_bind. apply bind_ext. intros. apply K. intros. apply K. intros. apply K. intros. statements. reflexivity.
  - unfold log_severity. cbn -[level or_ map]. unfold dlift.
    apply or_map; [reflexivity|]. intros i1. apply or_map; [reflexivity|]. intros i2. apply or_map; reflexivity.
  - unfold launch, stmt. cbn -[read_digit string bind map int_result]. unfold dlift. launched.
  - unfold launch, stmt. cbn -[read_digit string bind map int_result]. unfold dlift. launched.
  - unfold first_heading, stmt. cbn -[take_while1 take_while token bind map]. unfold dlift. statements. reflexivity.
Qed.
Print Assumptions C83_text.

(** * The hypotheses are met *)
Definition martin : list byte := ["M"; "a"; "r"; "t"; "i"; "n"]%byte.
Definition wernstal : list byte := ["W"; "e"; "r"; "n"; "s"; "t"; xc3; xa5; "l"]%byte.
Example C83_name_met : word_without " " martin /\ word_without x0a wernstal /\
  parse_only (doc_name true) (martin ++ " "%byte :: wernstal ++ [x0a]) = OOk (mkName martin wernstal).
Proof. split; [|split]; [split; [discriminate|cbn; intuition discriminate].. |reflexivity]. Qed.
Definition home : list (list byte) := [["1"; "9"; "2"]; ["1"; "6"; "8"]; ["0"]; ["0"; "0"; "1"]]%byte.
Example C83_ip_met : Forall octet home /\ Forall small home /\ octet ["2"; "5"; "6"]%byte /\ ~ small ["2"; "5"; "6"]%byte /\
  parse_only (parse_ip true true) (address ["1"; "9"; "2"]%byte ["1"; "6"; "8"]%byte ["0"]%byte ["0"; "0"; "1"]%byte) = OOk (192, 168, 0, 1)%Z /\
  parse_ip true true (mkInput true (["i"; "p"; ":"]%byte ++ dotted [["1"; "0"]%byte] ++ ["2"; "5"; "6"]%byte)) = Panic.
Proof.
  unfold octet, small, home, a_digit. repeat split; repeat constructor; try discriminate; try (cbn; congruence); try (cbn; lia).
Qed.
Example C83_log_met : In (["I"; "N"; "F"; "O"]%byte, LogInfo) severities /\ departs last_word ["D"; "E"; "M"; "O"; "N"]%byte 2 /\
  ~ starts_with_severity ["D"; "E"; "M"; "O"; "N"]%byte /\ log_severity true (mkInput false ["D"; "E"; "M"; "O"; "N"]%byte) = Error ["D"; "E"; "M"; "O"; "N"]%byte (EString last_word).
Proof.
  repeat split.
  - right; right; left; reflexivity.
  - exists ["D"; "E"]%byte, "B"%byte, "M"%byte, ["U"; "G"]%byte, ["O"; "N"]%byte. repeat split. discriminate.
  - intros (w & v & r & Hin & Hs). cbn in Hin. destruct Hin as [H|[H|[H|[H|[]]]]]; inversion H; subst; discriminate.
Qed.
Example C83_launch_met : launch_reading true false ("7"%byte :: "9"%byte :: missiles ++ [x0a]) (Data (mkInput false [x0a]) (7, 9, 7 + 9)%Z) /\
  departs missiles ["m"; "i"; "s"; "t"; "a"; "k"; "e"; "s"]%byte 3.
Proof.
  split; [apply la_fire; reflexivity|]. exists ["m"; "i"; "s"]%byte, "s"%byte, "t"%byte, ["i"; "l"; "e"; "s"]%byte, ["a"; "k"; "e"; "s"]%byte.
  repeat split. discriminate.
Qed.
Definition chomp : list byte := ["C"; "h"; "o"; "m"; "p"]%byte.
Definition pieces : list (option (list byte)) :=
  [Some [x0a; "x"; "#"]%byte; None; Some [x20; x09; "C"]%byte; Some ["h"; "o"; "m"; "p"; x0a; "m"; "o"; "r"; "e"]%byte].
Example C83_heading_met : ~ In "#"%byte [x0a; "x"%byte] /\ Forall blank [x20; x09] /\ title chomp /\ line_end x0a /\
  obeys (read_data_source (@chunk_read byte)) /\ delivers (read_data_source (@chunk_read byte)) schedule /\
  schedule pieces ([x0a; "x"%byte] ++ "#"%byte :: [x20; x09] ++ chomp ++ x0a :: ["m"; "o"; "r"; "e"]%byte) 1 /\
  (exists b0, fixed_with_size 12 = Done b0 /\
    on_source (read_data_source (@chunk_read byte)) (fixed_ops byte) 99 (Next (first_heading true) (fun _ => Stop)) (src_with_buffer pieces b0) = Done [inl chomp]).
Proof.
  split; [cbn; intuition discriminate|]. split; [repeat constructor; unfold blank; cbn; tauto|].
  split; [split; [unfold blank; cbn; intuition discriminate|repeat constructor; intros [H|H]; discriminate]|]. split; [right; reflexivity|].
  split; [apply chunk_obeys|]. split; [apply chunk_delivers|]. split; [repeat split; cbn; intuition discriminate|].
  eexists. split; [reflexivity|]. vm_compute. reflexivity.
Qed.
(** Where the line does not fit, a part of the heading is taken for it. *)
Example C83_heading_small : exists b0, fixed_with_size 9 = Done b0 /\
  on_source (read_data_source (@chunk_read byte)) (fixed_ops byte) 99 (Next (first_heading true) (fun _ => Stop)) (src_with_buffer pieces b0) = Done [inl (firstn 4 chomp)].
Proof. eexists. split; [reflexivity|]. vm_compute. reflexivity. Qed.
Example C83_my_combinator_met : my_combinator (take 2) [] (mkInput false ["a"%byte]) = (Data (mkInput false ["a"%byte]) [] : pres byte (list byte) (error byte)) /\
  ~ stable (my_combinator (take 2 : u8_parser (list byte)) []).
Proof.
  split; [reflexivity|]. apply (@C83_my_combinator_refuted byte _ _ (take 2) [] ["a"%byte] ["b"%byte] (mkInput false []) ["a"; "b"]%byte 1); [reflexivity..|discriminate].
Qed.
