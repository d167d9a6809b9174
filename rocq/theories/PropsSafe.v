(** Property theorems C09, C25, C26. *)
From Coq Require Import List Bool Arith ZArith Lia.
From Coq.Init Require Import Byte.
From Verif Require Import Base Parsers Combinators SpecBase SpecSafe SafeProofs StableProofs Ascii.
Import ListNotations.

(** * C09 *)
Theorem C09_built : forall I T E (p : parser I T E), built p -> forall i,
  match p i with
  | Data j _ => last j = last i /\ suffix (buf j) (buf i)
  | Error b _ => suffix b (buf i)
  | Incomplete n => 1 <= n
  | Panic | NoFuel => True
  end.
Proof. intros I T E p H i. pose proof (built_well_behaved H i). destruct (p i); assumption. Qed.

(** The library's ASCII parsers are such expressions. *)
Lemma int_mul_ext : forall verbose checked T (f : parser byte Z (error byte)) i, signed verbose checked T f i =
  bind (fun e => e)
    (option_ (fun i => map (fun s => if byte_eqb s "+" then 1%Z else (-1)%Z) (satisfy verbose (fun c => byte_eqb c "-" || byte_eqb c "+") i)) 1%Z i)
    (fun i sign => bind (fun e => e) (f i) (fun j num => match int_result T checked (sign * num) with Some v => ret v j | None => Panic end)).
Proof.
  intros. unfold signed. destruct (option_ _ _ i) as [j s| | | |]; cbn [bind]; auto. rewrite !honest_map_err_id by exact j.
  destruct (f j) as [k n| | | |]; cbn [bind]; auto. rewrite honest_map_err_id by exact j. reflexivity.
Qed.
Theorem C09_ascii : forall verbose checked T,
  built skip_whitespace /\ built (digit verbose) /\ built (decimal verbose checked T) /\
  forall f, built f -> built (signed verbose checked T f).
Proof.
  intros verbose checked T. repeat split.
  - apply b_map. apply b_take_while.
  - apply b_satisfy.
  - apply b_bind with (f := fun i buf => match to_decimal checked T buf with Some v => ret v i | None => Panic end); [apply b_take_while1|].
    intros t. destruct (to_decimal checked T t); [apply b_ret|apply b_panic].
  - intros f Hf. eapply b_ext; [|intros i; symmetry; apply int_mul_ext]. apply b_bind with
      (f := fun i sign => bind (fun e => e) (f i) (fun j num => match int_result T checked (sign * num) with Some v => ret v j | None => Panic end))
      (p := option_ (fun i => map (fun s => if byte_eqb s "+" then 1%Z else (-1)%Z) (satisfy verbose (fun c => byte_eqb c "-" || byte_eqb c "+") i)) 1%Z).
    + apply b_option. apply b_map. apply b_satisfy.
    + intros s. apply b_bind with (f := fun j num => match int_result T checked (s * num) with Some v => ret v j | None => Panic end); [assumption|].
      intros n. destruct (int_result T checked (s * n)); [apply b_ret|apply b_panic].
Qed.
(** All other exported names. *)
Theorem C09_names : forall S I U T E C fuel (col : collector U T C) s0 (p : sparser S I U E), (forall s, built (fun i => fst (p s i))) ->
  (forall n, built (count fuel col n s0 p)) /\ built (many fuel col s0 p) /\ built (many1 fuel col s0 p) /\
  built (skip_many fuel s0 p) /\ built (skip_many1 fuel s0 p) /\
  forall SE V N e0 (end_ : sparser SE I V N), (forall s, built (fun i => fst (end_ s i))) -> built (many_till fuel col s0 e0 p end_).
Proof. intros. repeat split; intros; auto using built_count, built_many, built_many1, built_skip_many, built_skip_many1, built_many_till. Qed.
(** User code can break it with the primitives only: asking for nothing. *)
Theorem C09_incomplete_zero_refuted : exists (p : parser nat nat unit), ~ well_behaved p /\ p = incomplete 0.
Proof. exists (incomplete 0). split; [|reflexivity]. intros H. specialize (H (mkInput true [])). simpl in H. lia. Qed.
Print Assumptions C09_built.
Print Assumptions C09_ascii.
Print Assumptions C09_names.
Print Assumptions C09_incomplete_zero_refuted.

(** A line of words, as an expression over the library. *)
Definition words fuel : parser nat (list (list nat)) (error nat) :=
  fun i => bind (fun e => e)
    (sep_by1 fuel (vec_collector (list nat)) (fun e => e) tt tt (pure (take_while1 true (fun c => 9 <? c))) (pure (token true Nat.eqb 1)) i)
    (fun i ws => bind (fun e => e) (or_ (token true Nat.eqb 0) (look_ahead any) i) (fun i _ => ret ws i)).
Lemma words_built : forall fuel, built (words fuel).
Proof.
  intros. apply b_bind with (f := fun i ws => bind (fun e => e) (or_ (token true Nat.eqb 0) (look_ahead any) i) (fun i _ => ret ws i)).
  - apply b_sep_by1; intros; [apply b_take_while1|apply b_token].
  - intros ws. apply b_bind with (f := fun i _ => ret ws i); [|intros; apply b_ret]. apply b_or; [apply b_token|apply b_look_ahead; apply b_any].
Qed.
Lemma words_safe : forall fuel, safe (words fuel).
Proof.
  intros. apply s_bind with (f := fun i ws => bind (fun e => e) (or_ (token true Nat.eqb 0) (look_ahead any) i) (fun i _ => ret ws i)).
  - apply s_sep_by1; intros; auto using vec_exhausts, pure_carries; [apply s_take_while1|apply s_token].
  - intros ws. apply s_bind with (f := fun i _ => ret ws i); [|intros; apply s_ret]. apply s_or; [apply s_token|apply s_look_ahead; apply s_any].
Qed.
Example C09_case : words 9 (mkInput false [20; 21; 1; 30; 0; 7; 7]) = Data (mkInput false [7; 7]) [[20; 21]; [30]] /\
  words 9 (mkInput false [20; 21; 1]) = Incomplete 1 /\ words 9 (mkInput true [1; 20]) = Error [1; 20] Unexpected.
Proof. repeat split. Qed.

(** * C25 *)
Theorem C25_value : forall I T E (p : parser I T E), safe p -> forall b j v, p (mkInput false b) = Data j v ->
  forall l c, p (mkInput l (b ++ c)) = Data (mkInput l (buf j ++ c)) v.
Proof. intros I T E p H b j v Hp l c. pose proof (safe_stable H b l c) as Hs. rewrite Hp in Hs. exact Hs. Qed.
Theorem C25_error : forall I T E (p : parser I T E), safe p -> forall b r e, p (mkInput false b) = Error r e ->
  forall l c, p (mkInput l (b ++ c)) = Error (r ++ c) e.
Proof. intros I T E p H b r e Hp l c. pose proof (safe_stable H b l c) as Hs. rewrite Hp in Hs. exact Hs. Qed.
Theorem C25_panic : forall I T E (p : parser I T E), safe p -> forall b, p (mkInput false b) = Panic ->
  forall l c, p (mkInput l (b ++ c)) = Panic.
Proof. intros I T E p H b Hp l c. pose proof (safe_stable H b l c) as Hs. rewrite Hp in Hs. exact Hs. Qed.
(** Conversely, once two continuations of a slice are treated differently the slice alone was not decided. *)
Theorem C25_undecided : forall I T E (p : parser I T E), safe p -> forall b c c' l l' j v,
  p (mkInput l (b ++ c)) = Data j v -> (forall j' , p (mkInput l' (b ++ c')) <> Data j' v) ->
  (exists n, p (mkInput false b) = Incomplete n) \/ p (mkInput false b) = NoFuel.
Proof.
  intros I T E p H b c c' l l' j v H1 H2. pose proof (safe_stable H b l c) as Hs. pose proof (safe_stable H b l' c') as Hs'.
  destruct (p (mkInput false b)) as [k u|r e|n| |]; simpl in *; eauto.
  - exfalso. rewrite H1 in Hs. inversion Hs; subst. apply (H2 _ Hs').
  - rewrite H1 in Hs. discriminate.
  - rewrite H1 in Hs. discriminate.
Qed.
(** Safe parsers: the library's ASCII parsers, and the remaining names. *)
Theorem C25_ascii : forall verbose checked T,
  safe skip_whitespace /\ safe (digit verbose) /\ safe (decimal verbose checked T) /\
  forall f, safe f -> safe (signed verbose checked T f).
Proof.
  intros verbose checked T. repeat split.
  - apply s_map. apply s_take_while.
  - apply s_satisfy.
  - apply s_bind with (f := fun i buf => match to_decimal checked T buf with Some v => ret v i | None => Panic end); [apply s_take_while1|].
    intros t. destruct (to_decimal checked T t); [apply s_ret|apply s_panic].
  - intros f Hf. eapply s_ext; [|intros i; symmetry; apply int_mul_ext]. apply s_bind with
      (f := fun i sign => bind (fun e => e) (f i) (fun j num => match int_result T checked (sign * num) with Some v => ret v j | None => Panic end))
      (p := option_ (fun i => map (fun s => if byte_eqb s "+" then 1%Z else (-1)%Z) (satisfy verbose (fun c => byte_eqb c "-" || byte_eqb c "+") i)) 1%Z).
    + apply s_option. apply s_map. apply s_satisfy.
    + intros s. apply s_bind with (f := fun j num => match int_result T checked (s * num) with Some v => ret v j | None => Panic end); [assumption|].
      intros n. destruct (int_result T checked (s * n)); [apply s_ret|apply s_panic].
Qed.
Theorem C25_names : forall S I U T E C fuel (col : collector U T C) s0 (p : sparser S I U E),
  exhausts col -> carries p -> (forall s, safe (fun i => fst (p s i))) ->
  (forall n, safe (count fuel col n s0 p)) /\ safe (many fuel col s0 p) /\ safe (many1 fuel col s0 p) /\
  safe (skip_many fuel s0 p) /\ safe (skip_many1 fuel s0 p) /\
  forall V N (end_ : parser I V N), decisive p end_ -> safe end_ -> safe (many_till fuel col s0 tt p (pure end_)).
Proof. intros. repeat split; intros; auto using safe_count, safe_many, safe_many1, safe_skip_many, safe_skip_many1, safe_many_till. Qed.
Theorem C25_vec : forall U m, exhausts (vec_collector U) /\ exhausts (vec_reserving U m).
Proof. intros. split; [apply vec_exhausts|apply vec_reserving_exhausts]. Qed.
(** Why the three primitives and the undecided [many_till] are left out: they do revise verdicts. *)
Theorem C25_peek_refuted : forall I (x : I), ~ stable (@peek I).
Proof. intros I x H. specialize (H [] false [x]). discriminate H. Qed.
Theorem C25_take_remainder_refuted : forall I (x : I), ~ stable (@take_remainder I).
Proof. intros I x H. specialize (H [] false [x]). discriminate H. Qed.
Theorem C25_eof_refuted : forall I verbose, ~ stable (@eof I verbose).
Proof. intros I verbose H. specialize (H [] true []). discriminate H. Qed.
Theorem C25_many_till_refuted : exists (p : parser nat nat (error nat)) (end_ : parser nat (list nat) (error nat)),
  safe p /\ safe end_ /\ forall fuel, ~ stable (many_till (Datatypes.S (Datatypes.S fuel)) (vec_collector nat) tt tt (pure p) (pure end_)).
Proof.
  exists (token true Nat.eqb 9), (string true Nat.eqb [1; 2]). split; [apply s_token|]. split; [apply s_string|].
  intros fuel H. specialize (H [1] false [2]). discriminate H.
Qed.
Print Assumptions C25_value.
Print Assumptions C25_error.
Print Assumptions C25_panic.
Print Assumptions C25_undecided.
Print Assumptions C25_ascii.
Print Assumptions C25_names.
Print Assumptions C25_vec.
Print Assumptions C25_peek_refuted.
Print Assumptions C25_take_remainder_refuted.
Print Assumptions C25_eof_refuted.
Print Assumptions C25_many_till_refuted.
Example C25_case : safe (words 9) /\
  words 9 (mkInput false [20; 21; 1; 30; 0]) = Data (mkInput false []) [[20; 21]; [30]] /\
  words 9 (mkInput true ([20; 21; 1; 30; 0] ++ [0; 5])) = Data (mkInput true ([] ++ [0; 5])) [[20; 21]; [30]] /\
  decisive (pure (@any nat)) (token true Nat.eqb 0).
Proof.
  split; [apply words_safe|]. repeat split. intros s b n H. exists 1. destruct b as [|x b]; [inversion H; split; [reflexivity|lia]|].
  unfold token in H. simpl in H. destruct x; discriminate H.
Qed.
Example C25_case_others : words 9 (mkInput false [1; 20]) = Error [1; 20] Unexpected /\ words 9 (mkInput true ([1; 20] ++ [0; 5])) = Error ([1; 20] ++ [0; 5]) Unexpected /\
  (words 9 (mkInput true ([20] ++ [0])) = Data (mkInput true []) [[20]] /\ words 9 (mkInput true ([20] ++ [1; 30; 0])) = Data (mkInput true []) [[20]; [30]] /\
   words 9 (mkInput false [20]) = Incomplete 1) /\
  exhausts (vec_collector nat) /\ carries (pure (@any nat)).
Proof. repeat split. apply vec_exhausts. Qed.

(** * C26 *)
Theorem C26_not_excessive : forall I T E (p : parser I T E), safe p -> forall b n, p (mkInput false b) = Incomplete n ->
  1 <= n /\ forall c, length c < n -> exists m, p (mkInput false (b ++ c)) = Incomplete m.
Proof.
  intros I T E p H b n Hp. split.
  - pose proof (built_well_behaved (safe_built H) (mkInput false b)) as Hh. rewrite Hp in Hh. exact Hh.
  - intros c Hc. pose proof (safe_stable H b false c) as Hs. rewrite Hp in Hs. exact (Hs eq_refl Hc).
Qed.
(** Hence: whatever continuation finally satisfies the parser in streaming mode has at least the items asked for. *)
Theorem C26_waiting_is_needed : forall I T E (p : parser I T E), safe p -> forall b n, p (mkInput false b) = Incomplete n ->
  forall c, (forall m, p (mkInput false (b ++ c)) <> Incomplete m) -> n <= length c.
Proof.
  intros I T E p H b n Hp c Hc. destruct (le_lt_dec n (length c)) as [|Hlt]; [assumption|exfalso].
  destruct (C26_not_excessive _ _ _ p H b n Hp) as [_ Hn]. destruct (Hn c Hlt) as [m Hm]. exact (Hc m Hm).
Qed.
Print Assumptions C26_not_excessive.
Print Assumptions C26_waiting_is_needed.
Example C26_case : let p := fun i => bind (fun e => e) (take 3 i) (fun i (_ : list nat) => @take nat 4 i) in
  safe p /\ p (mkInput false [1; 2; 3; 4]) = Incomplete 3 /\ p (mkInput false [1]) = Incomplete 2 /\
  p (mkInput false ([1; 2; 3; 4] ++ [5; 6; 7])) = Data (mkInput false []) [4; 5; 6; 7].
Proof. split; [|repeat split]. apply s_bind with (f := fun i _ => take 4 i); [|intros]; apply s_take. Qed.
