(** Property theorems C61. *)
From Coq Require Import List Bool Arith Lia.
From Verif Require Import Base Parsers Combinators Buffer Stream SpecBase SpecStream SpecOpaque OpaqueProofs OpaqueStreamProofs.
Import ListNotations.

Set Implicit Arguments.

(** * C61: items are opaque *)

(** The same program over two item types, its callbacks answering alike for items that belong together: on inputs that belong together
    the results do, position for position. *)
Theorem C61_parser : forall I J (RI : I -> J -> Prop) v T U E F (RT : T -> U -> Prop) (RE : E -> F -> Prop) p q, linked RI v RT RE p q ->
  forall i j, input_rel RI i j -> pres_rel RI RT RE (p i) (q j).
Proof. exact linked_rel. Qed.
Print Assumptions C61_parser.

Theorem C61_parse_only : forall I J (RI : I -> J -> Prop) v T U E F (RT : T -> U -> Prop) (RE : E -> F -> Prop) p q, linked RI v RT RE p q ->
  forall b c, Forall2 RI b c -> outcome_rel RT (parse_error_rel RI RE) (parse_only p b) (parse_only q c).
Proof.
  intros I J RI v T U E F RT RE p q H b c Hbc.
  assert (Hi : input_rel RI (mkInput true b) (mkInput true c)) by (split; simpl; auto).
  pose proof (linked_rel H Hi) as Hr. unfold parse_only.
  destruct (p _), (q _); simpl in *; try contradiction; auto. apply Hr.
Qed.
Print Assumptions C61_parse_only.

(** Collections into a [Vec], also where the reservation of memory may panic, are built alike. *)
Lemma vec_rel : forall U V (RU : U -> V -> Prop), col_rel RU (Forall2 RU) (prod_rel eq (Forall2 RU)) (vec_collector U) (vec_collector V).
Proof.
  intros U V RU. split; [split; simpl; auto|]. intros [x l] [y m] [H1 H2]. simpl in H1, H2. subst y. destruct x; simpl; [exact H2|].
  intros [u|] [w|] Ho; simpl in *; try contradiction; split; simpl; auto. apply f2_app; [exact H2|constructor; [exact Ho|constructor]].
Qed.
Definition vec_state_rel {U V} (RU : U -> V -> Prop) (x : vec_state U) (y : vec_state V) : Prop :=
  match x, y with
  | VStart, VStart => True
  | VFirst u, VFirst w => RU u w
  | VPush l, VPush m => Forall2 RU l m
  | VFinish l, VFinish m => Forall2 RU l m
  | VOverflow, VOverflow => True
  | _, _ => False
  end.
Lemma vec_reserving_rel : forall U V (RU : U -> V -> Prop) cap,
  col_rel RU (Forall2 RU) (vec_state_rel RU) (vec_reserving U cap) (vec_reserving V cap).
Proof.
  intros U V RU cap. split; [exact Logic.I|]. intros [|u|l|l|] [|w|m|m|] H; simpl in *; try contradiction; auto.
  - intros [u|] [w|] Ho; simpl in *; try contradiction; auto.
  - intros h. destruct (_ <=? cap); simpl; auto.
  - intros [u|] [w|] Ho; simpl in *; try contradiction; auto. apply f2_app; [exact H|constructor; [exact Ho|constructor]].
Qed.

(** The buffers treat items as opaque too, initialised or not, whatever the source does; and so do iterators as sources. *)
Theorem C61_fixed : forall I J (RI : I -> J -> Prop), buffer_rel RI (fixed_rel RI) (fixed_ops I) (fixed_ops J).
Proof. intros. apply fixed_ops_rel. Qed.
Theorem C61_growing : forall I J (RI : I -> J -> Prop), buffer_rel RI (growing_rel RI) (growing_ops I) (growing_ops J).
Proof. intros. apply growing_ops_rel. Qed.
Theorem C61_iterator : forall I J (RI : I -> J -> Prop) It It' (R : It -> It' -> Prop) next next',
  (forall s s', R s s' -> opt_rel RI (fst (next s)) (fst (next' s')) /\ R (snd (next s)) (snd (next' s'))) ->
  source_rel RI R (iter_data_source next) (iter_data_source next').
Proof. intros. apply iter_source_rel. assumption. Qed.
Print Assumptions C61_fixed.
Print Assumptions C61_growing.
Print Assumptions C61_iterator.

Theorem C61_slice : forall I J (RI : I -> J -> Prop) v T U E F (RT : T -> U -> Prop) (RE : E -> F -> Prop) p q, linked RI v RT RE p q ->
  forall s t, slice_rel RI s t ->
  same_run (prod_rel (slice_rel RI) (sum_rel RT (stream_error_rel RI RE))) (slice_parse p s) (slice_parse q t).
Proof. intros I J RI v T U E F RT RE p q H. apply slice_parse_rel. exact (linked_rel H). Qed.
Print Assumptions C61_slice.

(** Whole programs over a Source: any calls of its interface in any order, each depending on the answers so far, over any two sources
    which deliver, fail and end alike: the answers belong together, or both runs end in the same way. *)
Theorem C61_source : forall I J St St' B B' (RI : I -> J -> Prop) (RS : St -> St' -> Prop) (RB : B -> B' -> Prop) d1 d2 o1 o2,
  source_rel RI RS d1 d2 -> buffer_rel RI RB o1 o2 ->
  forall v T U E F (RT : T -> U -> Prop) (RE : E -> F -> Prop) c c',
  (forall l l', Forall2 (notice_rel RI RT RE) l l' -> order_rel RI v RT RE (c l) (c' l')) ->
  forall n x y, src_rel RS RB x y ->
  same_run (prod_rel (src_rel RS RB) (Forall2 (notice_rel RI RT RE))) (obeyed d1 o1 n c [] x) (obeyed d2 o2 n c' [] y).
Proof. intros. eapply obeyed_rel; eauto. Qed.
Print Assumptions C61_source.

(** The same for a new Source over a FixedSizeBuffer, and over a GrowingBuffer if the allocator gives the same amounts. *)
Theorem C61_fixed_program : forall I J St St' (RI : I -> J -> Prop) (RS : St -> St' -> Prop) d1 d2, source_rel RI RS d1 d2 ->
  forall v T U E F (RT : T -> U -> Prop) (RE : E -> F -> Prop) c c',
  (forall l l', Forall2 (notice_rel RI RT RE) l l' -> order_rel RI v RT RE (c l) (c' l')) ->
  forall n size s s', RS s s' ->
  same_run (Forall2 (notice_rel RI RT RE))
    (let! b := fixed_with_size size in let! (_, l) := obeyed d1 (fixed_ops I) n c [] (src_with_buffer s b) in Done l)
    (let! b := fixed_with_size size in let! (_, l) := obeyed d2 (fixed_ops J) n c' [] (src_with_buffer s' b) in Done l).
Proof.
  intros I J St St' RI RS d1 d2 Hd v T U E F RT RE c c' Hc n size s s' Hs.
  apply run_bind_rel with (R := fixed_rel RI); [apply fixed_new_rel|]. intros b b' Hb.
  apply run_bind_rel with (R := prod_rel (src_rel RS (fixed_rel RI)) (Forall2 (notice_rel RI RT RE))).
  - eapply obeyed_rel; eauto; [apply fixed_ops_rel|]. repeat split; simpl; auto; apply Hb.
  - intros [x l] [y m] [_ H]. exact H.
Qed.
Theorem C61_growing_program : forall I J St St' (RI : I -> J -> Prop) (RS : St -> St' -> Prop) d1 d2, source_rel RI RS d1 d2 ->
  forall v T U E F (RT : T -> U -> Prop) (RE : E -> F -> Prop) c c',
  (forall l l', Forall2 (notice_rel RI RT RE) l l' -> order_rel RI v RT RE (c l) (c' l')) ->
  forall n cap0 alloc limit s s', RS s s' ->
  same_run (Forall2 (notice_rel RI RT RE))
    (let! (_, l) := obeyed d1 (growing_ops I) n c [] (src_with_buffer s (growing_with_limit cap0 alloc limit)) in Done l)
    (let! (_, l) := obeyed d2 (growing_ops J) n c' [] (src_with_buffer s' (growing_with_limit cap0 alloc limit)) in Done l).
Proof.
  intros I J St St' RI RS d1 d2 Hd v T U E F RT RE c c' Hc n cap0 alloc limit s s' Hs.
  apply run_bind_rel with (R := prod_rel (src_rel RS (growing_rel RI)) (Forall2 (notice_rel RI RT RE))).
  - eapply obeyed_rel; eauto; [apply growing_ops_rel|]. split; [exact Hs|]. split; [apply growing_new_rel|]. simpl. auto.
  - intros [x l] [y m] [_ H]. exact H.
Qed.
Print Assumptions C61_fixed_program.
Print Assumptions C61_growing_program.

(** * Consequences *)

(** Renaming the items renames the answers and changes nothing else. *)
Definition graph {A B} (f : A -> B) (a : A) (b : B) : Prop := b = f a.
Definition error_renamed {I J} (f : I -> J) (e : error I) : error J :=
  match e with
  | Expected a => Expected (f a)
  | Unexpected => Unexpected
  | EString s => EString (List.map f s)
  | EPlain => EPlain
  end.
Definition outcome_renamed {I J T U E F} (f : I -> J) (g : T -> U) (h : E -> F) (o : outcome T (parse_error I E)) : outcome U (parse_error J F) :=
  match o with
  | OOk t => OOk (g t)
  | OErr (PErr b e) => OErr (PErr (List.map f b) (h e))
  | OErr (PIncomplete n) => OErr (PIncomplete n)
  | OPanic => OPanic
  | ONoFuel => ONoFuel
  end.

Lemma graph_list : forall A B (f : A -> B) l m, Forall2 (graph f) l m <-> m = List.map f l.
Proof.
  intros A B f. split.
  - induction 1 as [|a b l m Hab H IH]; simpl; [reflexivity|]. rewrite Hab, IH. reflexivity.
  - intros ->. induction l; simpl; constructor; auto. reflexivity.
Qed.
Lemma graph_error : forall I J (f : I -> J) e e', error_rel (graph f) e e' -> graph (error_renamed f) e e'.
Proof.
  intros I J f [a| |s|] [b| |t|]; simpl; try contradiction; unfold graph; simpl; intros H; try reflexivity.
  - rewrite H. reflexivity.
  - apply graph_list in H. rewrite H. reflexivity.
Qed.

Theorem C61_rename : forall I J (f : I -> J) v T U E F (g : T -> U) (h : E -> F) p q, linked (graph f) v (graph g) (graph h) p q ->
  forall b, parse_only q (List.map f b) = outcome_renamed f g h (parse_only p b).
Proof.
  intros I J f v T U E F g h p q H b. assert (Hb : Forall2 (graph f) b (List.map f b)) by (apply graph_list; reflexivity).
  pose proof (C61_parse_only H Hb) as Hr.
  destruct (parse_only p b) as [t|[c e|n]| |], (parse_only q _) as [u|[c' e'|n']| |]; simpl in *; try contradiction; try reflexivity; unfold graph in *.
  - rewrite Hr. reflexivity.
  - destruct Hr as [Hc He]. apply graph_list in Hc. rewrite Hc, He. reflexivity.
  - rewrite Hr. reflexivity.
Qed.
Print Assumptions C61_rename.

(** No item is invented: if the items of the data, and those in the program, have the property [P], then so have all items in the
    result: of a value that is made up of items, in the error, and in the slice of the error. *)
Definition kept {I} (P : I -> Prop) (a b : I) : Prop := a = b /\ P a.
Lemma kept_list : forall I (P : I -> Prop) l m, Forall2 (kept P) l m <-> l = m /\ Forall P l.
Proof.
  intros I P. split.
  - induction 1 as [|a b l m [-> Ha] H [-> IH]]; auto.
  - intros [<- H]. induction H; constructor; auto. split; auto.
Qed.
Definition items_of_error {I} (e : error I) : list I := match e with Expected a => [a] | EString s => s | _ => [] end.

Theorem C61_no_inventing : forall I (P : I -> Prop) v p, linked (kept P) v (Forall2 (kept P)) (error_rel (kept P)) p p ->
  forall b, Forall P b ->
    (forall l, parse_only p b = OOk l -> Forall P l) /\
    (forall c e, parse_only p b = OErr (PErr c e) -> Forall P c /\ Forall P (items_of_error e)).
Proof.
  intros I P v p H b Hb. assert (HF : Forall2 (kept P) b b) by (apply kept_list; auto).
  pose proof (C61_parse_only H HF) as Hr. split.
  - intros l Hl. rewrite Hl in Hr. simpl in Hr. apply kept_list in Hr. apply Hr.
  - intros c e Hc. rewrite Hc in Hr. simpl in Hr. destruct Hr as [H1 H2]. apply kept_list in H1. split; [apply H1|].
    destruct e as [a| |s|]; simpl in *; auto; [destruct H2; auto|]. apply kept_list in H2. apply H2.
Qed.
Print Assumptions C61_no_inventing.

(** Items that carry something along, say their place in a file, which the callbacks and [==] do not look at: what they carry makes no
    difference, and comes along in the result. *)
Theorem C61_carried : forall I K v T p q, linked (fun (a : I) (x : I * K) => a = fst x) v (fun (l : list I) (m : list (I * K)) => l = List.map fst m)
    (fun (_ : T) (_ : T) => True) p q ->
  forall data : list (I * K),
    (forall l, parse_only p (List.map fst data) = OOk l <-> exists m, parse_only q data = OOk m /\ l = List.map fst m) /\
    (forall n, parse_only p (List.map fst data) = OErr (PIncomplete n) <-> parse_only q data = OErr (PIncomplete n)).
Proof.
  intros I K v T p q H data.
  assert (Hb : Forall2 (fun (a : I) (x : I * K) => a = fst x) (List.map fst data) data) by (induction data; simpl; constructor; auto).
  pose proof (C61_parse_only H Hb) as Hr.
  destruct (parse_only p (List.map fst data)) as [t|[c e|n]| |], (parse_only q data) as [u|[c' e'|n']| |]; simpl in Hr; try contradiction;
    split; intros; split; intros HH; try discriminate; try (destruct HH as (m & Hm & _); discriminate).
  - exists u. inversion HH; subst. auto.
  - destruct HH as (m & Hm & ->). inversion Hm; subst. reflexivity.
  - inversion HH; subst. reflexivity.
  - inversion HH; subst. reflexivity.
Qed.
Print Assumptions C61_carried.

(** An [==] which does look at it makes a difference: the same program [token] text, items that belong together, one succeeds and the
    other fails. *)
Theorem C61_equality_needed :
  let RI := fun (a : nat) (x : nat * nat) => a = fst x in
  let eq2 := fun x y : nat * nat => (fst x =? fst y) && (snd x =? snd y) in
  Forall2 RI [7] [(7, 1)] /\ RI 7 (7, 0) /\
  parse_only (token false Nat.eqb 7) [7] = OOk 7 /\ parse_only (token false eq2 (7, 0)) [(7, 1)] = OErr (PErr [(7, 1)] EPlain).
Proof. repeat split; auto. Qed.
Print Assumptions C61_equality_needed.

(** * A program *)

(** Fields, separated by 0 and closed by 9, after a string: [string [5; 5]], then [sep_by] of [take_while1], then [token 9]. *)
Definition record_ {X} (eqb : X -> X -> bool) (five zero nine : X) (low : X -> bool) : parser X (list (list X)) (error X) :=
  fun i => bind (fun e => e) (string true eqb [five; five] i) (fun i _ =>
    bind (fun e => e) (sep_by 20 (vec_collector (list X)) (fun e => e) tt tt (pure (take_while1 true low)) (pure (token true eqb zero)) i) (fun i l =>
      bind (fun e => e) (token true eqb nine i) (fun i _ => ret l i))).
Definition low_nat (n : nat) : bool := (1 <=? n) && (n <=? 4).

Lemma record_linked : forall X Y (R : X -> Y -> Prop) e1 e2 a b c a' b' c' f g, eq_rel R e1 e2 -> R a a' -> R b b' -> R c c' -> pred_rel R f g ->
  linked R true (Forall2 (Forall2 R)) (error_rel R) (record_ e1 a b c f) (record_ e2 a' b' c' g).
Proof.
  intros X Y R e1 e2 a b c a' b' c' f g He Ha Hb Hc Hf. unfold record_.
  eapply k_bind; [apply k_string; [exact He|constructor; [exact Ha|constructor; [exact Ha|constructor]]]|intros e e' H; exact H|]. intros _ _ _.
  eapply k_bind; [|intros e e' H; exact H|].
  - apply k_sep_by with (RS := fun _ _ => True) (RX := fun _ _ => True) (RU := Forall2 R) (RV := R) (RC := prod_rel eq (Forall2 (Forall2 R))) (RN := error_rel R); auto.
    + apply vec_rel.
    + intros s s' _. apply k_take_while1. exact Hf.
    + intros s s' _. apply k_token; assumption.
  - intros t u Htu. cbn beta. eapply k_bind; [apply k_token; [exact He|exact Hc]|intros e e' H; exact H|]. intros _ _ _. apply k_ret. exact Htu.
Qed.

Definition located := (nat * nat)%type.
Definition located_eqb (x y : located) : bool := fst x =? fst y.

Example C61_record :
  linked (fun a (x : located) => a = fst x) true (Forall2 (Forall2 (fun a x => a = fst x))) (error_rel (fun a x => a = fst x))
    (record_ Nat.eqb 5 0 9 low_nat) (record_ located_eqb (5, 0) (0, 0) (9, 0) (fun x => low_nat (fst x))) /\
  parse_only (record_ Nat.eqb 5 0 9 low_nat) [5; 5; 1; 2; 0; 3; 9] = OOk [[1; 2]; [3]] /\
  parse_only (record_ located_eqb (5, 0) (0, 0) (9, 0) (fun x => low_nat (fst x))) [(5, 1); (5, 2); (1, 3); (2, 4); (0, 5); (3, 6); (9, 7)] =
    OOk [[(1, 3); (2, 4)]; [(3, 6)]].
Proof.
  split; [|split; reflexivity]. apply record_linked; try reflexivity.
  - intros a b -> c d ->. reflexivity.
  - intros a b ->. reflexivity.
Qed.

(** The hypothesis of [C61_rename]: numbers moved up by 100. *)
Example C61_moved : forall b,
  parse_only (record_ Nat.eqb 105 100 109 (fun n => low_nat (n - 100))) (List.map (fun n => n + 100) b) =
  outcome_renamed (fun n => n + 100) (List.map (List.map (fun n => n + 100))) (error_renamed (fun n => n + 100)) (parse_only (record_ Nat.eqb 5 0 9 low_nat) b).
Proof.
  intros b. eapply C61_rename with (v := true). eapply k_ext; [apply record_linked with (R := graph (fun n => n + 100))| | | |]; try reflexivity.
  - intros a a' -> c c' ->. destruct (Nat.eqb_spec a c), (Nat.eqb_spec (a + 100) (c + 100)); auto; lia.
  - intros a a' ->. rewrite Nat.add_sub. reflexivity.
  - intros l m H. unfold graph. induction H as [|x y l m Hxy H IH]; simpl; [reflexivity|]. apply graph_list in Hxy. rewrite Hxy, IH. reflexivity.
  - intros e e' H. apply graph_error. exact H.
Qed.

(** The hypothesis of [C61_no_inventing]: [string [2; 4]] and even numbers. *)
Example C61_evens : forall b l, Forall Nat.Even b -> parse_only (string true Nat.eqb [2; 4]) b = OOk l -> Forall Nat.Even l.
Proof.
  intros b l Hb. apply (@C61_no_inventing nat Nat.Even true (string true Nat.eqb [2; 4])); [|exact Hb]. apply k_string.
  - intros a a' [<- _] c c' [<- _]. reflexivity.
  - apply kept_list. split; [reflexivity|]. repeat constructor; [exists 1|exists 2]; reflexivity.
Qed.

(** The hypothesis of [C61_carried]. *)
Example C61_take_carried : forall (data : list located) l,
  parse_only (fun i => map_err (fun _ => tt) (take 2 i)) (List.map fst data) = OOk l <->
  exists m, parse_only (fun i => map_err (fun _ => tt) (take 2 i)) data = OOk m /\ l = List.map fst m.
Proof.
  intros data. apply (@C61_carried nat nat true unit). eapply k_ext with (RT := Forall2 (fun a (x : located) => a = fst x)) (RE := fun _ _ => True).
  - eapply k_map_err; [apply k_take|auto].
  - reflexivity.
  - reflexivity.
  - intros t u H. induction H; simpl; congruence.
  - auto.
Qed.

(** The hypotheses of [C61_fixed_program] and [C61_growing_program]: data delivered from two lists, and a program that parses a field, reads
    one item and looks at the buffer. *)
Definition of_list {X} : data_source (list X) X := iter_data_source (fun l => match l with [] => (None, []) | x :: l => (Some x, l) end).
Lemma of_list_rel : forall X Y (R : X -> Y -> Prop), source_rel R (Forall2 R) of_list of_list.
Proof.
  intros X Y R. apply C61_iterator. intros s s' H. destruct H; simpl; auto.
Qed.
Definition dialogue {X} (low : X -> bool) (past : list (notice X (list X) (error X))) : order X (list X) (error X) :=
  match past with
  | [] => OParse (take_while1 true low)
  | [NParse (inl _)] => ORead 1
  | [NParse (inl _); NItems (IoOk _)] => OBuffer
  | _ => OFill
  end.
Lemma dialogue_rel : forall X Y (R : X -> Y -> Prop) f g, pred_rel R f g -> forall l l', Forall2 (notice_rel R (Forall2 R) (error_rel R)) l l' ->
  order_rel R true (Forall2 R) (error_rel R) (dialogue f l) (dialogue g l').
Proof.
  intros X Y R f g Hf l l' H. destruct H as [|a b l l' Hab H]; [apply k_take_while1, Hf|].
  destruct a as [[t|e]| | | | |], b as [[t'|e']| | | | |]; simpl in Hab; try contradiction; try exact Logic.I.
  destruct H as [|c d l l' Hcd H]; [reflexivity|].
  destruct c as [| |[?|?]| | |], d as [| |[?|?]| | |]; simpl in Hcd; try contradiction; try exact Logic.I. destruct H; exact Logic.I.
Qed.
Example C61_dialogue :
  source_rel (fun a (x : located) => a = fst x) (Forall2 (fun a x => a = fst x)) of_list of_list /\
  (let! b := fixed_with_size 4 in let! (_, l) := obeyed of_list (fixed_ops nat) 4 (dialogue low_nat) [] (src_with_buffer [1; 2; 9; 8; 7] b) in Done l) =
    Done [NParse (inl [1; 2]); NItems (IoOk [9]); NItems (IoOk [8]); NCount (IoOk 0)] /\
  (let! b := fixed_with_size 4 in let! (_, l) := obeyed of_list (fixed_ops located) 4 (dialogue (fun x => low_nat (fst x))) []
      (src_with_buffer [(1, 1); (2, 2); (9, 3); (8, 4); (7, 5)] b) in Done l) =
    Done [NParse (inl [(1, 1); (2, 2)]); NItems (IoOk [(9, 3)]); NItems (IoOk [(8, 4)]); NCount (IoOk 0)].
Proof. split; [apply of_list_rel|]. split; reflexivity. Qed.
