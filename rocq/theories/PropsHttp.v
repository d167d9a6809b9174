(** Property theorems C41 and C42. *)
From Coq Require Import List Bool Arith Lia.
From Coq.Init Require Import Byte.
From Coq.Strings Require Import Byte.
From Verif Require Import Base Parsers Combinators Ascii Buffer Stream SpecBase SpecSafe SpecBuffer SpecStream Http SpecHttp
  BufferProofs StreamProofs SimProofs HttpProofs HttpStreamProofs PropsStream.
Import ListNotations.

(** * C41: the request parser of examples/http_parser.rs *)

(** Every well-formed request is accepted, whatever follows, in both modes, and the parser stops right behind it. *)
Theorem C41_accepts : forall verbose w q, message w q -> forall l rest,
  request verbose (mkInput l (w ++ rest)) = Data (mkInput l rest) q.
Proof. exact request_takes. Qed.
(** Nothing else is accepted. *)
Theorem C41_only : forall verbose i j q, request verbose i = Data j q ->
  last j = last i /\ exists w, message w q /\ buf i = w ++ buf j.
Proof. exact request_reads. Qed.
(** A text is a request in one way only, and no request begins with another one. *)
Theorem C41_unambiguous : forall w q r w' q' r', message w q -> message w' q' -> w ++ r = w' ++ r' -> w = w' /\ q = q' /\ r = r'.
Proof.
  intros w q r w' q' r' H H' He. pose proof (request_takes true H true r) as H1. rewrite He, (request_takes true H' true r') in H1.
  inversion H1; subst. apply app_inv_tail in He. auto.
Qed.
(** There is an answer to every input. *)
Theorem C41_total : forall verbose i, request verbose i <> Panic /\ request verbose i <> NoFuel.
Proof. intros verbose i. exact (@request_answers verbose _ i (le_n _)). Qed.
(** The fuel is an artefact. *)
Theorem C41_fuel : forall verbose fuel i, length (buf i) + 2 <= fuel -> request_fuel verbose fuel i = request verbose i.
Proof. intros verbose fuel i H. symmetry. apply request_eq. assumption. Qed.
(** Within a request, more input is asked for, but not more than the request has. *)
Theorem C41_prefix : forall verbose a b q, message (a ++ b) q -> b <> [] ->
  exists n, request verbose (mkInput false a) = Incomplete n /\ 1 <= n <= length b.
Proof. exact request_prefix. Qed.
Theorem C41_stable : forall verbose, stable (request verbose) /\ well_behaved (request verbose).
Proof. intros verbose. split; [apply request_stable|apply request_well_behaved]. Qed.
(** What is written out is read back. *)
Theorem C41_roundtrip : forall verbose q l rest, proper q -> request verbose (mkInput l (render q ++ rest)) = Data (mkInput l rest) q.
Proof. intros verbose q l rest H. apply request_takes. apply render_message. assumption. Qed.
(** And whatever is read can be written out again: the rendering has the same meaning as the original. *)
Lemma message_proper : forall w q, message w q -> proper q.
Proof.
  intros w q (s1 & s2 & e1 & hs & e2 & _ & Hm & _ & Hu & _ & Hv & _ & Hh & _). split; [assumption|]. split; [assumption|]. split; [assumption|].
  induction Hh as [|w1 h hs hv H Hh IH]; constructor; [|assumption]. destruct H as (ls & _ & Hn & Hne & Hls). split; [assumption|].
  split; [destruct Hls; [contradiction|discriminate]|]. clear Hne. induction Hls as [|w2 v ls vs H Hls IHl]; constructor; [|assumption].
  destruct H as (b & e & _ & _ & H1 & H2 & _). split; assumption.
Qed.
Theorem C41_normalise : forall verbose i j q, request verbose i = Data j q ->
  request verbose (mkInput (last i) (render q ++ buf j)) = Data j q.
Proof.
  intros verbose i [l b] q H. apply request_reads in H. destruct H as (Hl & w & Hw & _). cbn [last buf] in *. subst l.
  apply request_takes, render_message. eapply message_proper. eassumption.
Qed.
Print Assumptions C41_accepts.
Print Assumptions C41_only.
Print Assumptions C41_unambiguous.
Print Assumptions C41_total.
Print Assumptions C41_fuel.
Print Assumptions C41_prefix.
Print Assumptions C41_stable.
Print Assumptions C41_roundtrip.
Print Assumptions C41_normalise.

(** Not so good: the request line may extend over several lines, as the URI takes everything up to a space; *)
Theorem C41_one_line_refuted : forall verbose, exists w q,
  request verbose (mkInput true w) = Data (mkInput true []) q /\ In x0a (uri (fst q)).
Proof.
  intros verbose.
  exists ["G"; " "; "/"; x0a; "a"; ":"; "b"; " "; "H"; "T"; "T"; "P"; "/"; "1"; x0a; x0a]%byte, (mkRequest ["G"] ["/"; x0a; "a"; ":"; "b"] ["1"], [])%byte.
  split; [destruct verbose; vm_compute; reflexivity|]. cbn. auto.
Qed.
(** and a control character is a token character. *)
Theorem C41_control_refuted : token_byte x7f.
Proof. apply token_spec. reflexivity. Qed.
Print Assumptions C41_one_line_refuted.
Print Assumptions C41_control_refuted.

(** "GET  /x HTTP/1.1", "Host: a b" with a continuation line, ended by different line ends. *)
Definition demo_text : list byte :=
  ["G"; "E"; "T"; " "; " "; "/"; "x"; " "; "H"; "T"; "T"; "P"; "/"; "1"; "."; "1"; x0d; x0a;
   "H"; "o"; ":"; " "; x09; "a"; " "; "b"; x0a; " "; "c"; x0d; x0a; x0a]%byte.
Definition demo_request : request_t * list header_t :=
  (mkRequest ["G"; "E"; "T"] ["/"; "x"] ["1"; "."; "1"], [mkHeader ["H"; "o"] [["a"; " "; "b"]; ["c"]]])%byte.
Example C41_case_runs : request false (mkInput false (demo_text ++ ["P"%byte])) = Data (mkInput false ["P"%byte]) demo_request.
Proof. vm_compute. reflexivity. Qed.
Example C41_case : message demo_text demo_request.
Proof.
  pose proof C41_case_runs as H. apply C41_only in H. destruct H as (_ & w & Hw & He). cbn [buf] in He. apply app_inj_tail in He. destruct He as [<- _]. assumption.
Qed.
Example C41_case_proper : proper demo_request.
Proof. eapply message_proper. exact C41_case. Qed.
(** Without the empty line, a bad version, a header without value, a bare carriage return. *)
Example C41_case_rejects :
  request false (mkInput true ["G"; " "; "/"; " "; "H"; "T"; "T"; "P"; "/"; "1"; x0a]%byte) = Incomplete 1 /\
  request false (mkInput true ["G"; " "; "/"; " "; "H"; "T"; "T"; "P"; "/"; "x"; x0a; x0a]%byte) = Error ["x"; x0a; x0a]%byte EPlain /\
  request false (mkInput true ["G"; " "; "/"; " "; "H"; "T"; "T"; "P"; "/"; "1"; x0a; "a"; ":"; x0a; x0a]%byte) = Error ["a"; ":"; x0a; x0a]%byte EPlain /\
  request false (mkInput true ["G"; " "; "/"; " "; "H"; "T"; "T"; "P"; "/"; "1"; x0d; x0d; x0a]%byte) = Error [x0d; x0d; x0a]%byte EPlain.
Proof. repeat split; vm_compute; reflexivity. Qed.

(** * C42: reading requests from a source *)

(** Whatever the sizes of the reads and wherever they fail, a program that reads request after request gets exactly those of the data, and then
    the end. *)
(** Missing: programs that do not try again after an I/O error, and (for [C42_fixed_partial]) requests longer than the buffer; false for the example itself ([C42_error_refuted], [C42_big_refuted]). *)
Theorem C42_growing_partial : forall verbose St (ds : data_source St byte) R alloc s ws qs e n fuel, obeys ds -> delivers ds R -> R s (concat ws) e ->
  Forall2 message ws qs -> length qs < n -> 2 * length (concat ws) + e + 2 <= fuel ->
  on_source ds (growing_ops byte) fuel (requests verbose n) (src_with_buffer s (growing_with_limit 0 alloc 0)) = Done (List.map inl qs ++ [inr SEndOfInput]).
Proof.
  intros verbose St ds R alloc s ws qs e n fuel Ho HR Hs Hws Hn Hf.
  destruct (@requests_slice verbose (fun _ => True) ws qs Hws ltac:(apply Forall_forall; auto) Logic.I (slice_new (concat ws)) n ltac:(cbn; lia) eq_refl) as [H1 H2].
  rewrite <- (H2 Hn). eapply C31_growing; eauto.
Qed.
(** With the buffer of the example, the requests must fit into it. *)
Theorem C42_fixed_partial : forall verbose St (ds : data_source St byte) R size b0 s ws qs e n fuel, obeys ds -> delivers ds R -> R s (concat ws) e ->
  fixed_with_size size = Done b0 -> Forall2 message ws qs -> Forall (fun w => length w <= size) ws -> length qs < n -> 2 * length (concat ws) + e + 2 <= fuel ->
  on_source ds (fixed_ops byte) fuel (requests verbose n) (src_with_buffer s b0) = Done (List.map inl qs ++ [inr SEndOfInput]).
Proof.
  intros verbose St ds R size b0 s ws qs e n fuel Ho HR Hs Hb Hws Hsz Hn Hf.
  assert (Hfits : Forall (fun w : list byte => forall m, m <= length w -> m <= size) ws) by (eapply Forall_impl; [|exact Hsz]; intros w Hw m Hm; cbn beta in Hw; lia).
  destruct (@requests_slice verbose (fun m => m <= size) ws qs Hws Hfits (Nat.le_0_l size) (slice_new (concat ws)) n ltac:(cbn; lia) eq_refl) as [H1 H2].
  rewrite <- (H2 Hn). eapply C31_fixed; eauto.
Qed.
(** Any chunking and fault schedule. *)
Theorem C42_chunks : forall verbose alloc cs ws qs n, ~ In (Some []) cs -> chunks_data cs = concat ws -> Forall2 message ws qs -> length qs < n ->
  exists fuel, on_source (read_data_source chunk_read) (growing_ops byte) fuel (requests verbose n) (src_with_buffer cs (growing_with_limit 0 alloc 0)) =
    Done (List.map inl qs ++ [inr SEndOfInput]).
Proof.
  intros verbose alloc cs ws qs n Hne Hd Hws Hn. eexists. eapply C42_growing_partial; eauto using chunk_obeys, chunk_delivers.
  repeat split; auto.
Qed.
Print Assumptions C42_growing_partial.
Print Assumptions C42_fixed_partial.
Print Assumptions C42_chunks.

(** The loop of [main], over a fresh source without I/O errors. *)
Section Main.
  Context {St B : Type}.
  Variable ds : data_source St byte.
  Variables (ops : buffer_ops byte B) (inv : B -> Prop) (view : B -> list byte) (room : B -> nat) (fits : nat -> Prop).
  Hypothesis Q : queue_like ops inv view room fits.
  Hypothesis Ho : obeys ds.
  Variable R : St -> list byte -> nat -> Prop.
  Hypothesis HR : delivers ds R.

  Lemma main_fresh : forall verbose (ok : list byte -> Prop) s b0 data fuel, inv b0 -> view b0 = [] -> R s data 0 -> fits 1 ->
    (forall rest, ok rest -> suits fits rest (request verbose)) ->
    (forall rest j q, ok rest -> request verbose (mkInput true rest) = Data j q -> ok (buf j)) ->
    ok data -> 4 * length data + 2 <= fuel ->
    (exists qs, messages data qs /\ main_loop verbose ds ops fuel (src_with_buffer s b0) 0 = Done (length qs)) \/
    ((forall qs, ~ messages data qs) /\ main_loop verbose ds ops fuel (src_with_buffer s b0) 0 = Panicked).
  Proof.
    intros verbose ok s b0 data fuel Hi Hv Hs H1 Hok Hnext Hd Hf.
    eapply (@main_spec verbose _ _ ds ops inv view room fits Q Ho R HR ok Hok Hnext fuel (src_with_buffer s b0) data data 0); auto.
    - unfold stands. cbn [src_with_buffer src_buffer src_source src_auto src_eoi src_incomplete src_request].
      split; [assumption|]. split; [assumption|]. split; [rewrite Hv; reflexivity|]. split; [reflexivity|]. split; [discriminate|]. intros _.
      eapply (q_fits Q); [|exact H1]. cbn [Nat.max]. apply Nat.le_min_l.
    - unfold measure. cbn [src_with_buffer src_buffer src_incomplete src_request]. rewrite Hv. cbn. lia.
  Qed.
End Main.

Lemma fixed_view_size : forall I size (b : fixed I), fixed_inv size b -> length (fixed_view b) <= size.
Proof. intros I size b [H1 H2]. unfold fixed_view. rewrite sview_length by assumption. destruct H1 as (_ & H1 & _). lia. Qed.
Lemma not_all_short : forall (ws : list (list byte)) m, ~ Forall (fun w => length w <= m) ws -> exists w, In w ws /\ m < length w.
Proof.
  intros ws m H. induction ws as [|w ws IH]; [exfalso; apply H; constructor|]. destruct (Nat.le_gt_cases (length w) m) as [Hw|Hw].
  - destruct IH as (x & H1 & H2); [intros Hall; apply H; constructor; assumption|]. exists x. split; [right; assumption|assumption].
  - exists w. split; [left; reflexivity|assumption].
Qed.

(** [main] prints the number of requests in the file, if each fits into the buffer: 6144 bytes. *)
Theorem C42_main : forall verbose St (ds : data_source St byte) R file ws qs fuel, obeys ds -> delivers ds R -> R file (concat ws) 0 ->
  Forall2 message ws qs -> Forall (fun w => length w <= main_room) ws -> 4 * length (concat ws) + 2 <= fuel ->
  http_main verbose ds fuel file = Done (length qs).
Proof.
  intros verbose St ds R file ws qs fuel Ho HR Hs Hws Hsz Hf. unfold http_main. change main_room with default_buffer_size in *. set (size := default_buffer_size) in *.
  destruct (@fixed_with_size byte size) as [b0| | |] eqn:Hb; try (unfold fixed_with_size, assert in Hb; destruct (0 <? size) eqn:H0; [discriminate|]; apply Nat.ltb_ge in H0; unfold size, default_buffer_size in H0; exfalso; lia).
  cbn [run_bind]. destruct (fixed_fresh _ _ _ Hb) as (H1 & Hi & Hv).
  set (ok := fun rest => exists ws qs, rest = concat ws /\ Forall2 message ws qs /\ Forall (fun w => length w <= size) ws).
  destruct (@main_fresh _ _ ds _ _ _ _ _ (fixed_queue size) Ho R HR verbose ok file b0 (concat ws) fuel Hi Hv Hs H1) as [(qs' & H2 & H3)|[H2 _]]; auto.
  - intros rest (ws1 & qs1 & -> & H2 & H3). apply (@request_suits verbose _ ws1 qs1 H2); [|lia]. intros w ws' ->. inversion H3; subst. intros m Hm. lia.
  - intros rest j q (ws1 & qs1 & -> & H2 & H3) Hp. destruct H2 as [|w q1 ws1 qs1 Hw H2]; [discriminate|]. cbn [concat] in Hp. rewrite (request_takes verbose Hw) in Hp. inversion Hp; subst.
    cbn [buf]. inversion H3; subst. exists ws1, qs1. auto.
  - exists ws, qs. auto.
  - rewrite H3. f_equal. f_equal. eapply (messages_unique verbose); [exact H2|]. exists ws. auto.
  - exfalso. apply (H2 qs). exists ws. auto.
Qed.
(** In a small file, whatever is in it: [main] prints a number exactly if the file is that number of requests, and panics otherwise. *)
Theorem C42_main_decides : forall verbose St (ds : data_source St byte) R file data fuel, obeys ds -> delivers ds R -> R file data 0 ->
  length data <= main_room -> 4 * length data + 2 <= fuel ->
  (exists qs, messages data qs /\ http_main verbose ds fuel file = Done (length qs)) \/
  ((forall qs, ~ messages data qs) /\ http_main verbose ds fuel file = Panicked).
Proof.
  intros verbose St ds R file data fuel Ho HR Hs Hsz Hf. unfold http_main. change main_room with default_buffer_size in *. set (size := default_buffer_size) in *.
  destruct (@fixed_with_size byte size) as [b0| | |] eqn:Hb; try (unfold fixed_with_size, assert in Hb; destruct (0 <? size) eqn:H0; [discriminate|]; apply Nat.ltb_ge in H0; unfold size, default_buffer_size in H0; exfalso; lia).
  cbn [run_bind]. destruct (fixed_fresh _ _ _ Hb) as (H1 & Hi & Hv).
  apply (@main_fresh _ _ ds _ _ _ _ _ (fixed_queue size) Ho R HR verbose (fun rest => length rest <= size) file b0 data fuel Hi Hv Hs H1); auto.
  - intros rest Hr. apply request_suits_all. intros m Hm. lia.
  - intros rest j q Hr Hp. apply request_reads in Hp. destruct Hp as (_ & w & _ & Hp). cbn [buf] in Hp. rewrite Hp, app_length in Hr. lia.
Qed.
(** For any file: [main] prints the number of requests if the file is a sequence of requests none of which is longer than the buffer, and panics otherwise. *)
Theorem C42_main_exact : forall verbose St (ds : data_source St byte) R file data fuel, obeys ds -> delivers ds R -> R file data 0 ->
  4 * length data + 2 <= fuel ->
  (exists ws qs, data = concat ws /\ Forall2 message ws qs /\ Forall (fun w => length w <= main_room) ws /\ http_main verbose ds fuel file = Done (length qs)) \/
  ((forall ws qs, data = concat ws -> Forall2 message ws qs -> exists w, In w ws /\ main_room < length w) /\ http_main verbose ds fuel file = Panicked).
Proof.
  intros verbose St ds R file data fuel Ho HR Hs Hf. unfold http_main. change main_room with default_buffer_size in *. set (size := default_buffer_size) in *.
  destruct (@fixed_with_size byte size) as [b0| | |] eqn:Hb; try (unfold fixed_with_size, assert in Hb; destruct (0 <? size) eqn:H0; [discriminate|]; apply Nat.ltb_ge in H0; unfold size, default_buffer_size in H0; exfalso; lia).
  cbn [run_bind]. destruct (fixed_fresh _ _ _ Hb) as (H1 & Hi & Hv).
  destruct (@main_exact verbose _ _ ds _ _ _ _ _ (fixed_queue size) Ho R HR) with (fuel := fuel) (st := src_with_buffer file b0) (rest := data) (d := data) (n := 0) as [(qs & (ws & H2 & H3 & H4) & H5)|[H2 H3]].
  - intros b Hb'. apply fixed_view_size in Hb'. assumption.
  - exact H1.
  - intros m. destruct (Nat.le_gt_cases m size); [left|right]; lia.
  - unfold stands. cbn [src_with_buffer src_buffer src_source src_auto src_eoi src_incomplete src_request].
    split; [assumption|]. split; [assumption|]. split; [rewrite Hv; reflexivity|]. split; [reflexivity|]. split; [discriminate|]. intros _.
    cbn [Nat.max]. lia.
  - unfold measure. cbn [src_with_buffer src_buffer src_incomplete src_request]. rewrite Hv. cbn. lia.
  - left. exists ws, qs. auto.
  - right. split; [|assumption]. intros ws qs He Hws. apply not_all_short. intros Hall. apply (H2 qs). exists ws. auto.
Qed.
Print Assumptions C42_main_exact.
(** The same loop over a GrowingBuffer decides files of any size. *)
Theorem C42_loop_decides : forall verbose St (ds : data_source St byte) R alloc file data fuel, obeys ds -> delivers ds R -> R file data 0 ->
  4 * length data + 2 <= fuel ->
  (exists qs, messages data qs /\ main_loop verbose ds (growing_ops byte) fuel (src_with_buffer file (growing_with_limit 0 alloc 0)) 0 = Done (length qs)) \/
  ((forall qs, ~ messages data qs) /\ main_loop verbose ds (growing_ops byte) fuel (src_with_buffer file (growing_with_limit 0 alloc 0)) 0 = Panicked).
Proof.
  intros verbose St ds R alloc file data fuel Ho HR Hs Hf. destruct (growing_fresh byte alloc) as [Hi Hv].
  apply (@main_fresh _ _ ds _ _ _ _ _ growing_queue0 Ho R HR verbose (fun _ => True) file _ data fuel Hi Hv Hs Logic.I); auto.
  intros rest _. apply request_suits_all. auto.
Qed.
Print Assumptions C42_main.
Print Assumptions C42_main_decides.
Print Assumptions C42_loop_decides.

(** A request that does not fit into the buffer makes [main] panic, *)
Definition big_text : list byte := (["G"; " "]%byte ++ repeat "/"%byte main_room ++ [" "; "H"; "T"; "T"; "P"; "/"; "1"; x0a; x0a]%byte).
Theorem C42_big_refuted : forall verbose, message big_text (mkRequest ["G"%byte] (repeat "/"%byte main_room) ["1"%byte], []) /\
  http_main verbose (read_data_source chunk_read) 9 [Some big_text] = Panicked.
Proof.
  intros verbose. split.
  - exists [" "]%byte, [" "]%byte, [x0a], [], [x0a]. cbn [fst snd method uri version concat]. split; [reflexivity|].
    split; [split; [discriminate|]; repeat constructor; apply token_spec; reflexivity|]. split; [split; [discriminate|]; repeat constructor|].
    split; [split; [discriminate|]; apply Forall_forall; intros c Hc; apply repeat_spec in Hc; subst; discriminate|].
    split; [split; [discriminate|]; repeat constructor|]. split; [split; [discriminate|]; repeat constructor; apply version_spec; reflexivity|].
    split; [right; reflexivity|]. split; [constructor|]. right; reflexivity.
  - destruct verbose; vm_compute; reflexivity.
Qed.
(** as does an I/O error, though the program could go on (C42_fixed_partial). *)
Theorem C42_error_refuted : forall verbose, message demo_text demo_request /\
  http_main verbose (read_data_source chunk_read) 9 [None; Some demo_text] = Panicked /\
  http_main verbose (read_data_source chunk_read) 9 [Some demo_text] = Done 1.
Proof. intros verbose. split; [exact C41_case|]. destruct verbose; split; vm_compute; reflexivity. Qed.
(** In fact every I/O error before the end of the file does, whatever has been read before it and whatever the buffer. *)
Theorem C42_main_broken : forall verbose St (ds : data_source St byte) F file data fuel, obeys ds -> breaks ds F -> F file data ->
  4 * length data + 1 <= fuel -> http_main verbose ds fuel file = Panicked.
Proof.
  intros verbose St ds F file data fuel Ho HF Hs Hf. unfold http_main. set (size := default_buffer_size) in *.
  destruct (@fixed_with_size byte size) as [b0| | |] eqn:Hb; try (unfold fixed_with_size, assert in Hb; destruct (0 <? size) eqn:H0; [discriminate|]; apply Nat.ltb_ge in H0; unfold size, default_buffer_size in H0; exfalso; lia).
  cbn [run_bind]. destruct (fixed_fresh _ _ _ Hb) as (H1 & Hi & Hv).
  apply (@broken_panics verbose _ _ ds _ _ _ _ _ (fixed_queue size) Ho F HF H1) with (d := data); auto.
  unfold measure. cbn [src_with_buffer src_buffer src_incomplete src_request]. rewrite Hv. cbn. lia.
Qed.
Theorem C42_loop_broken : forall verbose St (ds : data_source St byte) F alloc file data fuel n, obeys ds -> breaks ds F -> F file data ->
  4 * length data + 1 <= fuel -> main_loop verbose ds (growing_ops byte) fuel (src_with_buffer file (growing_with_limit 0 alloc 0)) n = Panicked.
Proof.
  intros verbose St ds F alloc file data fuel n Ho HF Hs Hf. destruct (growing_fresh byte alloc) as [Hi Hv].
  apply (@broken_panics verbose _ _ ds _ _ _ _ _ growing_queue0 Ho F HF Logic.I) with (d := data); auto.
  unfold measure. cbn [src_with_buffer src_buffer src_incomplete src_request]. rewrite Hv. cbn. lia.
Qed.
(** Any chunks and then an error. *)
Theorem C42_main_chunks_broken : forall verbose pre post fuel, ~ In (Some []) pre -> ~ In None pre -> 4 * length (chunks_data pre) + 1 <= fuel ->
  http_main verbose (read_data_source chunk_read) fuel (pre ++ None :: post) = Panicked.
Proof.
  intros verbose pre post fuel Hne Hno Hf.
  apply C42_main_broken with (F := fun s d => exists pre, s = pre ++ None :: post /\ ~ In (Some []) pre /\ ~ In None pre /\ d = chunks_data pre) (data := chunks_data pre); auto using chunk_obeys; [|exists pre; auto].
  clear. intros s d (pre & -> & Hne & Hno & ->) n s' w r H. cbn [ds_read read_data_source] in H.
  destruct pre as [|[c|] pre]; cbn [app chunk_read] in H; inversion H; subst; clear H; [exact Logic.I| |exfalso; apply Hno; left; reflexivity].
  assert (Hc : c <> []) by (intros ->; apply Hne; left; reflexivity).
  rewrite firstn_length. split; [lia|]. exists (firstn n c), (skipn n c ++ chunks_data pre). cbn [chunks_data flat_map].
  split; [rewrite app_assoc, firstn_skipn; reflexivity|]. split; [apply firstn_length|]. split; [unfold writes; rewrite firstn_all2; [reflexivity|rewrite map_length; lia]|]. split.
  - destruct (skipn n c) as [|y l] eqn:E.
    + exists pre. split; [reflexivity|]. split; [intros K; apply Hne; right; exact K|]. split; [intros K; apply Hno; right; exact K|reflexivity].
    + exists (Some (y :: l) :: pre). split; [reflexivity|]. split; [intros [K|K]; [discriminate|apply Hne; right; exact K]|].
      split; [intros [K|K]; [discriminate|apply Hno; right; exact K]|reflexivity].
  - intros E. destruct c; [contradiction|]. cbn [length] in E. lia.
Qed.
Example C42_case_broken : ~ In (Some []) [Some (firstn 4 demo_text); Some (skipn 4 demo_text)] /\ ~ In None [Some (firstn 4 demo_text); Some (skipn 4 demo_text)] /\
  http_main true (read_data_source chunk_read) 999 ([Some (firstn 4 demo_text); Some (skipn 4 demo_text)] ++ [None; Some demo_text]) = Panicked.
Proof. split; [intros [H|[H|[]]]; discriminate|]. split; [intros [H|[H|[]]]; discriminate|]. vm_compute. reflexivity. Qed.
Print Assumptions C42_main_broken.
Print Assumptions C42_loop_broken.
Print Assumptions C42_main_chunks_broken.
Print Assumptions C42_big_refuted.
Print Assumptions C42_error_refuted.

(** Three requests in odd chunks, with errors in between. *)
Definition demo_chunks : list (option (list byte)) :=
  [Some (firstn 4 demo_text); None; Some (skipn 4 demo_text ++ firstn 20 demo_text); None; None; Some (firstn 11 (skipn 20 demo_text)); Some (skipn 31 demo_text ++ demo_text)].
Example C42_case : ~ In (Some []) demo_chunks /\ chunks_data demo_chunks = concat [demo_text; demo_text; demo_text] /\
  Forall2 message [demo_text; demo_text; demo_text] [demo_request; demo_request; demo_request] /\
  Forall (fun w => length w <= main_room) [demo_text; demo_text; demo_text].
Proof.
  split; [cbn; intuition discriminate|]. split; [vm_compute; reflexivity|]. split; [repeat constructor; exact C41_case|].
  apply Forall_forall. intros w Hw. assert (w = demo_text) as -> by (cbn [In] in Hw; intuition congruence).
  apply Nat.leb_le. vm_compute. reflexivity.
Qed.
Example C42_case_runs : exists b0, fixed_with_size 32 = Done b0 /\
  on_source (read_data_source chunk_read) (fixed_ops byte) 99 (requests true 9) (src_with_buffer demo_chunks b0) =
    Done [inl demo_request; inl demo_request; inl demo_request; inr SEndOfInput].
Proof. eexists. split; [reflexivity|]. vm_compute. reflexivity. Qed.
Example C42_case_main : http_main true (read_data_source chunk_read) 99 [Some demo_text; Some ["G"%byte]] = Panicked /\
  http_main true (read_data_source chunk_read) 99 [Some (firstn 5 demo_text); Some (skipn 5 demo_text ++ demo_text)] = Done 2.
Proof. split; vm_compute; reflexivity. Qed.
