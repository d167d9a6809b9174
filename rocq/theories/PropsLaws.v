(** C62: different ways to write a parser. *)
From Coq Require Import List Bool Arith Lia.
From Verif Require Import Base Parsers Combinators SpecBase SpecIter SpecSafe SpecLaws BaseProofs ManyProofs SafeProofs LawsProofs.
Import ListNotations.

Set Implicit Arguments.

(** * Ranges *)

(** Ranges that admit the same counts, for every collection (however it reads [size_hint]) and every closure. *)
Theorem C62_ranges : forall S I U T E C fuel (col : collector U T C) (s0 : S) (p : sparser S I U E) (i : input I),
  bmany fuel col (RFrom 0) s0 p i = many fuel col s0 p i /\
  (forall b, bmany fuel col (RRange 0 b) s0 p i = bmany fuel col (RTo b) s0 p i) /\
  (forall n, bmany fuel col (RRange n (Datatypes.S n)) s0 p i = count fuel col n s0 p i).
Proof. intros. repeat split; intros; [apply many_from_zero|apply many_to_zero|apply many_exactly]. Qed.
(** The same for [skip_many], with the exception of a parser that asks for nothing. *)
Theorem C62_skip_ranges : forall S I U E fuel (s0 : S) (p : sparser S I U E) (i : input I),
  bskip_many fuel (RFrom 0) s0 p i = skip_many fuel s0 p i /\
  (forall b, bskip_many fuel (RRange 0 b) s0 p i = bskip_many fuel (RTo b) s0 p i) /\
  ((forall s j s', p s j <> (Incomplete 0, s')) ->
   forall n, bskip_many fuel (RRange n (Datatypes.S n)) s0 p i = bskip_many fuel (RExact n) s0 p i).
Proof. intros. repeat split; intros; [apply skip_from_zero|apply skip_to_zero|apply skip_exactly; assumption]. Qed.
Theorem C62_skip_exact_refuted : exists (p : parser nat nat unit) i,
  bskip_many 9 (RRange 2 3) tt (pure p) i = Incomplete 0 /\ bskip_many 9 (RExact 2) tt (pure p) i = Data i tt.
Proof. exists (incomplete 0), (mkInput false []). split; reflexivity. Qed.

(** [a] further applications: first [a], then the rest of the range, appended. *)
Theorem C62_shift : forall I U E (p : parser I U E) a r (i : input I), nonempty r ->
  alike (fun fuel => bmany fuel (vec_collector U) (shifted a r) tt (pure p) i)
    (fun fuel => bind (fun e => e) (count fuel (vec_collector U) a tt (pure p) i)
      (fun j us => map (app us) (bmany fuel (vec_collector U) r tt (pure p) j))).
Proof. intros I U E p a r i Hr. exact (many_shifted p a i Hr). Qed.
Theorem C62_count_sum : forall I U E (p : parser I U E) n m (i : input I),
  alike (fun fuel => count fuel (vec_collector U) (n + m) tt (pure p) i)
    (fun fuel => bind (fun e => e) (count fuel (vec_collector U) n tt (pure p) i)
      (fun j us => map (app us) (count fuel (vec_collector U) m tt (pure p) j))).
Proof. intros I U E p n m i. apply (@C62_shift I U E p n (RExact m) i). exists m. reflexivity. Qed.
Theorem C62_at_least : forall I U E (p : parser I U E) n (i : input I),
  alike (fun fuel => bmany fuel (vec_collector U) (RFrom n) tt (pure p) i)
    (fun fuel => bind (fun e => e) (count fuel (vec_collector U) n tt (pure p) i)
      (fun j us => map (app us) (many fuel (vec_collector U) tt (pure p) j))).
Proof. intros I U E p n i. apply (@C62_shift I U E p n RFull i). exists 0. exact Logic.I. Qed.
(** A second [many] of the same adds nothing. *)
Theorem C62_many_twice : forall I U E (p : parser I U E) (i : input I),
  alike (fun fuel => bind (fun e => e) (many fuel (vec_collector U) tt (pure p) i)
      (fun j us => map (app us) (many fuel (vec_collector U) tt (pure p) j)))
    (fun fuel => many fuel (vec_collector U) tt (pure p) i).
Proof. intros. apply many_twice. Qed.
(** A closure that remembers is another matter. *)
Theorem C62_many_twice_refuted : exists (p : sparser bool nat nat unit) (i : input nat),
  forall fuel, 9 <= fuel ->
    many fuel (vec_collector nat) true p i <>
    bind (fun e => e) (many fuel (vec_collector nat) true p i) (fun j us => map (app us) (many fuel (vec_collector nat) true p j)).
Proof.
  (* succeeds every second time *)
  exists (fun (s : bool) (i : input nat) => (if s then match buf i with c :: r => Data (mkInput (last i) r) c | [] => Error [] tt end else Error (buf i) tt, negb s)).
  exists (mkInput true [1; 2; 3]). intros fuel Hf. do 9 (destruct fuel as [|fuel]; [lia|]). discriminate.
Qed.
(** Nothing as a separator. *)
Theorem C62_sep_nothing : forall S I U T E C fuel (col : collector U T C) (s0 : S) (p : sparser S I U E) (i : input I),
  sep_by fuel col (fun e => e) s0 tt p (pure (ret tt)) i = many fuel col s0 p i /\
  sep_by1 fuel col (fun e => e) s0 tt p (pure (ret tt)) i = many1 fuel col s0 p i.
Proof. intros. split; apply sep_nothing. Qed.

Print Assumptions C62_ranges.
Print Assumptions C62_skip_ranges.
Print Assumptions C62_skip_exact_refuted.
Print Assumptions C62_shift.
Print Assumptions C62_count_sum.
Print Assumptions C62_at_least.
Print Assumptions C62_many_twice.
Print Assumptions C62_many_twice_refuted.
Print Assumptions C62_sep_nothing.

(** * Runs *)

(** [many(satisfy)] and [take_while] give the same items, the same rest, the same request. *)
Theorem C62_run : forall I v (f : I -> bool) (i : input I),
  alike (fun fuel => many fuel (vec_collector I) tt (pure (satisfy v f)) i) (fun _ => take_while f i) /\
  alike (fun fuel => many1 fuel (vec_collector I) tt (pure (satisfy v f)) i) (fun _ => take_while1 v f i).
Proof.
  intros I v f i. split; apply many_known; try apply run_outcome; try apply run1_outcome; [exists 0; exact Logic.I|exists 1; simpl; lia].
Qed.
(** So do the slices matched by [skip_many(satisfy)]. *)
Theorem C62_matched_run : forall I v (f : I -> bool) (i : input I),
  alike (fun fuel => map fst (matched_by (fun j => skip_many fuel tt (pure (satisfy v f)) j) i)) (fun _ => take_while f i) /\
  alike (fun fuel => map fst (matched_by (fun j => skip_many1 fuel tt (pure (satisfy v f)) j) i)) (fun _ => take_while1 v f i).
Proof.
  intros I v f i. split.
  - apply matched_run with (g := fun fuel j => skip_many fuel tt (pure (satisfy v f)) j).
    + apply skip_known; [exists 0|..]; try exact Logic.I. apply run_outcome.
    + intros j x. apply take_while_slice.
    + pose proof (run_outcome v f i) as H. inversion H; discriminate.
  - apply matched_run with (g := fun fuel j => skip_many1 fuel tt (pure (satisfy v f)) j).
    + apply skip_known; [exists 1; simpl; lia|exact Logic.I|apply run1_outcome].
    + intros j x. apply take_while1_slice.
    + pose proof (run1_outcome v f i) as H. inversion H; discriminate.
Qed.
(** [take_till] is [take_while] of the opposite, except where the last of the data ends first: [take_while] takes it, [take_till] asks for
    more. *)
Theorem C62_take_till : forall I (f : I -> bool) (i : input I),
  (last i = false \/ Exists (fun a => f a = true) (buf i) -> take_till f i = take_while (fun a => negb (f a)) i) /\
  (last i = true -> Forall (fun a => f a = false) (buf i) ->
     take_till f i = Incomplete 1 /\ take_while (fun a => negb (f a)) i = Data (mkInput true []) (buf i)).
Proof.
  intros I f [l b]. simpl. unfold take_till, take_while. simpl.
  assert (Hp : position (fun c => Bool.eqb (negb (f c)) false) b = position f b).
  { clear l. induction b as [|a b IH]; simpl; auto. rewrite IH. destruct (f a); reflexivity. }
  rewrite Hp. split.
  - intros H. destruct (position f b) eqn:Hb; auto. destruct H as [->|H]; auto. apply position_none in Hb. exfalso.
    rewrite Forall_forall in Hb. apply Exists_exists in H. destruct H as (a & Ha & Hf). rewrite (Hb a Ha) in Hf. discriminate.
  - intros -> H. apply position_none in H. rewrite H. split; reflexivity.
Qed.
(** [many_till(any, satisfy(f))]: up to and including. *)
Theorem C62_through : forall I v (f : I -> bool) (i : input I),
  alike (fun fuel => many_till fuel (vec_collector I) tt tt (pure (@any I)) (pure (satisfy v f)) i)
    (fun _ => bind (fun e => e) (take_till f i) (fun j x => map (fun _ => x) (satisfy v f j))).
Proof. exact till_run. Qed.
(** [scan] is [run_scanner] without the state; without a state of interest it is [take_till]. *)
Theorem C62_scan : forall I S (s : S) (f : S -> I -> option S) (i : input I),
  scan s f i = map fst (run_scanner s f i) /\
  (forall g, (forall t a, f t a = None <-> g a = true) -> scan s f i = take_till g i).
Proof.
  intros I S s f [l b]. split.
  - destruct (proj1 (run_scanner_spec f s l b (run_scanner s f (mkInput l b))) eq_refl) as [(x & c & y & s1 & Hb & Ha & Hc & ->)|(s1 & Ha & ->)];
      apply scan_spec; [left; exists x, c, y, s1; auto|right; exists s1; auto].
  - intros g Hg. assert (Hacc : forall x t t', accepts f t x t' -> Forall (fun a => g a = false) x).
    { intros x t t' H. induction H as [|t0 a t1 x t2 Hf H IH]; constructor; auto. destruct (g a) eqn:Hga; auto. apply (Hg t0) in Hga. congruence. }
    symmetry. apply take_till_spec.
    destruct (proj1 (scan_spec f s l b (scan s f (mkInput l b))) eq_refl) as [(x & c & y & s1 & Hb & Ha & Hc & ->)|(s1 & Ha & ->)].
    + left. exists x, c, y. split; [exact Hb|]. split; [eapply Hacc; exact Ha|]. split; [apply (Hg s1); exact Hc|reflexivity].
    + right. split; [eapply Hacc; exact Ha|reflexivity].
Qed.
(** After a run there is no second one. *)
Theorem C62_run_twice : forall I v (f : I -> bool) (i : input I) j x, take_while f i = Data j x ->
  take_while f j = Data j [] /\ (buf j = [] -> take_while1 v f j = Incomplete 1) /\
  (buf j <> [] -> take_while1 v f j = Error (buf j) (err_unexpected v)).
Proof.
  intros I v f [l b] j x H. apply take_while_spec in H.
  destruct H as [(x' & c & y & -> & _ & Hc & H)|[(_ & -> & H)|(_ & _ & H)]]; inversion H; subst; unfold take_while, take_while1; simpl.
  - rewrite Hc. simpl. repeat split; auto; discriminate.
  - repeat split; auto; congruence.
Qed.
(** [take] and counting single items: the same slice; a count asks for one item at a time. *)
Theorem C62_take : forall I n (i : input I),
  alike (fun fuel => count fuel (vec_collector I) n tt (pure (@any I)) i)
    (fun _ => match take n i with Incomplete _ => Incomplete 1 | r => r end).
Proof. exact count_any. Qed.
(** The last of the data, item by item. *)
Theorem C62_remainder : forall I (i : input I), last i = true ->
  alike (fun fuel => many fuel (vec_collector I) tt (pure (@any I)) i) (fun _ => take_remainder i).
Proof. intros I [l b] H. simpl in H. subst l. apply rest_any. Qed.
(** Two slices or one: the same items; the one asks for all that is missing, the two only for their share. *)
Theorem C62_take_sum : forall I n m (i : input I),
  let whole := take (n + m) i in
  let parts := bind (fun e => e) (take n i) (fun j x => map (app x) (take m j)) in
  (n + m <= length (buf i) -> whole = parts) /\
  (length (buf i) < n + m -> exists k k', whole = Incomplete k /\ parts = Incomplete k' /\ 1 <= k' <= k /\ (n <= length (buf i) -> k' = k)).
Proof.
  intros I n m [l b]. unfold take. simpl. split; intros H.
  - destruct (Nat.leb_spec (n + m) (length b)); [|lia]. destruct (Nat.leb_spec n (length b)); [|lia]. simpl. rewrite skipn_length.
    destruct (Nat.leb_spec m (length b - n)); [|lia]. simpl. unfold ret, replace. simpl. f_equal.
    + f_equal. clear. revert b. induction n as [|n IH]; intros b; simpl; auto. destruct b; simpl; [now rewrite skipn_nil|]. apply IH.
    + clear. revert b. induction n as [|n IH]; intros b; simpl; auto. destruct b; simpl; [now rewrite firstn_nil|]. f_equal. apply IH.
  - destruct (Nat.leb_spec (n + m) (length b)); [lia|]. destruct (Nat.leb_spec n (length b)) as [Hn|Hn].
    + simpl. rewrite skipn_length. destruct (Nat.leb_spec m (length b - n)); [lia|]. unfold incomplete. simpl. do 2 eexists. repeat split; lia.
    + unfold incomplete. simpl. do 2 eexists. repeat split; lia.
Qed.
(** A string in two parts succeeds on the same data. *)
Theorem C62_string_app : forall I v eqb (s t : list I) (i : input I) j x,
  string v eqb (s ++ t) i = Data j x <-> bind (fun e => e) (string v eqb s i) (fun k y => map (app y) (string v eqb t k)) = Data j x.
Proof.
  intros I v eqb s t [l b] j x.
  assert (Hsucc : forall w c j x, string v eqb w (mkInput l c) = Data j x <-> exists y, c = x ++ y /\ same_items eqb w x /\ j = mkInput l y).
  { clear. intros w c j x. split.
    - intros H. destruct (string_total eqb w c) as [Hs|[(a & y & -> & Ha)|(a & y & n & -> & Hl & Hd)]].
      + rewrite (@string_short I v eqb w l c (length w - length c)) in H by lia. discriminate.
      + rewrite (string_match v l y Ha) in H. inversion H; subst. exists y. auto.
      + rewrite (string_mismatch_spec v l y Hl Hd) in H. destruct v; discriminate.
    - intros (y & -> & Ha & ->). apply string_match. exact Ha. }
  split.
  - rewrite Hsucc. intros (y & Hb & Hs & ->). apply Forall2_app_inv_l in Hs. destruct Hs as (x1 & x2 & H1 & H2 & ->).
    rewrite Hb, <- app_assoc, (string_match v l (x2 ++ y) H1). simpl. rewrite (string_match v l y H2). reflexivity.
  - intros H. destruct (string v eqb s (mkInput l b)) as [k y|c e|n| |] eqn:H1; try discriminate. apply Hsucc in H1. destruct H1 as (r & -> & Hs & ->).
    simpl in H. destruct (string v eqb t (mkInput l r)) as [k z|c e|n| |] eqn:H2; try discriminate. apply Hsucc in H2. destruct H2 as (r' & -> & Ht & ->).
    simpl in H. inversion H; subst. apply Hsucc. exists r'. rewrite app_assoc. repeat split. apply Forall2_app; assumption.
Qed.
(** They fail differently: the whole wants all its items before it compares any. *)
Theorem C62_string_app_refuted : exists (s t : list nat) (i : input nat),
  string false Nat.eqb (s ++ t) i = Incomplete 1 /\
  bind (fun e => e) (string false Nat.eqb s i) (fun k y => map (app y) (string false Nat.eqb t k)) = Error [3] EPlain.
Proof. exists [1; 2], [4], (mkInput false [1; 3]). split; reflexivity. Qed.

Print Assumptions C62_run.
Print Assumptions C62_matched_run.
Print Assumptions C62_take_till.
Print Assumptions C62_through.
Print Assumptions C62_scan.
Print Assumptions C62_run_twice.
Print Assumptions C62_take.
Print Assumptions C62_remainder.
Print Assumptions C62_take_sum.
Print Assumptions C62_string_app.
Print Assumptions C62_string_app_refuted.

(** * Single items *)

(** The single item parsers in terms of [satisfy] and [any]; only [token] reports otherwise. *)
Theorem C62_items : forall I v (eqb : I -> I -> bool) (i : input I),
  any i = satisfy v (fun _ => true) i /\
  (forall f, satisfy v f i = satisfy_with v (fun a => a) f i) /\
  (forall T (g : I -> T) f, satisfy_with v g f i = map g (satisfy v (fun a => f (g a)) i)) /\
  (forall t, not_token v eqb t i = satisfy v (fun a => negb (eqb t a)) i) /\
  (forall t, token v eqb t i = map_err (fun _ => err_expected v t) (satisfy v (eqb t) i)) /\
  peek_next i = look_ahead (@any I) i /\
  (last i = true \/ buf i <> [] -> peek i = option_ (fun j => map Some (look_ahead (@any I) j)) None i).
Proof.
  intros I v eqb [l b]. destruct b as [|a b].
  - repeat split; auto. simpl. intros [->|H]; [reflexivity|congruence].
  - unfold any, satisfy, satisfy_with, not_token, token, peek_next, peek, look_ahead, option_, any. simpl. repeat split; auto.
    + intros T g f. destruct (f (g a)); reflexivity.
    + intros t. destruct (eqb t a); reflexivity.
Qed.
(** Where more data can come, [peek] answers at once and the other way to write it asks for more. *)
Theorem C62_peek_refuted : exists i : input nat,
  peek i = Data i None /\ option_ (fun j => map Some (look_ahead (@any nat) j)) None i = Incomplete 1.
Proof. exists (mkInput false []). split; reflexivity. Qed.

Print Assumptions C62_items.
Print Assumptions C62_peek_refuted.

(** * Control *)

Theorem C62_built : forall I T E (p : parser I T E), built p -> leaves_suffix p.
Proof. intros I T E p H i j t Hp. pose proof (built_well_behaved H i) as Hw. rewrite Hp in Hw. exact Hw. Qed.
(** A common beginning can be taken out of an alternative. *)
Theorem C62_factor : forall I T U E (p : parser I T E) (f g : T -> parser I U E) (i : input I), leaves_suffix p ->
  or_ (fun j => bind (fun e => e) (p j) (fun k t => f t k)) (fun j => bind (fun e => e) (p j) (fun k t => g t k)) i =
  bind (fun e => e) (p i) (fun k t => or_ (f t) (g t) k).
Proof.
  intros I T U E p f g i Hp. unfold or_. destruct (p i) as [j t|b e|n| |] eqn:H; simpl; auto.
  - rewrite !map_err_same. destruct (Hp i j t H) as [Hl _]. rewrite Hl. destruct (f t j); try reflexivity; try destruct (last i); rewrite ?map_err_same; reflexivity.
  - destruct (last i); reflexivity.
Qed.
(** A common end cannot: the alternative is decided before it. *)
Theorem C62_factor_right_refuted : exists (p q : parser nat (list nat) (error nat)) (f : parser nat nat (error nat)) (i : input nat),
  bind (fun e => e) (or_ p q i) (fun k _ => f k) = Error [2; 3] EPlain /\
  or_ (fun j => bind (fun e => e) (p j) (fun k _ => f k)) (fun j => bind (fun e => e) (q j) (fun k _ => f k)) i = Data (mkInput true []) 3.
Proof.
  exists (string false Nat.eqb [1]), (string false Nat.eqb [1; 2]), (token false Nat.eqb 3), (mkInput true [1; 2; 3]). split; reflexivity.
Qed.
(** What cannot fail can: changing the value or the error. *)
Theorem C62_map_or : forall I T U E F (p q : parser I T E) (h : T -> U) (c : E -> F) (i : input I),
  map h (or_ p q i) = or_ (fun j => map h (p j)) (fun j => map h (q j)) i /\
  map_err c (or_ p q i) = or_ (fun j => map_err c (p j)) (fun j => map_err c (q j)) i /\
  look_ahead (or_ p q) i = or_ (look_ahead p) (look_ahead q) i.
Proof.
  intros. unfold or_, look_ahead. repeat split; destruct (p i) as [j t|b e|n| |]; simpl; auto; destruct (last i); auto.
Qed.
(** Alternatives of which at most one has a say can be tried in either order. *)
Theorem C62_or_comm : forall I T E (p q : parser I T E) (i : input I),
  (p i = q i \/ (exists b e, p i = Error b e) \/ (exists b e, q i = Error b e)) ->
  (forall j t, or_ p q i = Data j t <-> or_ q p i = Data j t) /\
  (last i = false -> forall n, or_ p q i = Incomplete n <-> or_ q p i = Incomplete n).
Proof.
  intros I T E p q i H. unfold or_. destruct H as [H|[(b & e & H)|(b & e & H)]]; rewrite H.
  - split; intros; tauto.
  - destruct (q i) as [k u|c x|m| |] eqn:Hq; split; intros; try rewrite H0; split; intros Hx; try discriminate; auto;
      destruct (last i); try discriminate; auto.
  - destruct (p i) as [k u|c x|m| |] eqn:Hq; split; intros; try rewrite H0; split; intros Hx; try discriminate; auto;
      destruct (last i); try discriminate; auto.
Qed.
(** One string the beginning of the other: the order decides. *)
Theorem C62_or_comm_refuted : exists (p q : parser nat (list nat) (error nat)) (i : input nat) j k,
  or_ p q i = Data j [1] /\ or_ q p i = Data k [1; 2].
Proof.
  exists (string false Nat.eqb [1]), (string false Nat.eqb [1; 2]), (mkInput false [1; 2; 3]). do 2 eexists. split; reflexivity.
Qed.
(** Looking first makes no difference; looking twice neither. *)
Theorem C62_look_ahead : forall I T E (p : parser I T E) (i : input I),
  look_ahead (look_ahead p) i = look_ahead p i /\
  bind (fun e => e) (look_ahead p i) (fun j _ => p j) = p i /\
  (forall U (h : T -> U), look_ahead (fun j => map h (p j)) i = map h (look_ahead p i)) /\
  (forall d, look_ahead (option_ p d) i = option_ (look_ahead p) d i) /\
  map fst (matched_by (look_ahead p) i) = map (fun _ => []) (look_ahead p i).
Proof.
  intros I T E p i. unfold look_ahead, option_, matched_by. repeat split; intros; destruct (p i) as [j t|b e|n| |] eqn:H; simpl; try rewrite H; auto;
    try (destruct (last i); reflexivity). rewrite Nat.ltb_irrefl, Nat.sub_diag. reflexivity.
Qed.
Theorem C62_option : forall I T E (p : parser I T E) d e (i : input I),
  option_ (option_ p d) e i = option_ p d i /\
  (forall U (h : T -> U), map h (option_ p d i) = option_ (fun j => map h (p j)) (h d) i).
Proof.
  intros I T E p d e i. unfold option_. split; intros; destruct (p i) as [j t|b x|n| |]; simpl; auto; destruct (last i) eqn:Hl; simpl; rewrite ?Hl; auto.
Qed.
(** The slice matched by two parsers in sequence is the slice of the one and then that of the other; without the slice nothing changes. *)
Theorem C62_matched : forall I T U E (p : parser I T E) (f : T -> parser I U E) (i : input I),
  leaves_suffix p -> (forall t, leaves_suffix (f t)) ->
  map snd (matched_by p i) = p i /\
  matched_by (fun j => bind (fun e => e) (p j) (fun k t => f t k)) i =
  bind (fun e => e) (matched_by p i) (fun j xt => bind (fun e => e) (matched_by (f (snd xt)) j) (fun k yu => ret (fst xt ++ fst yu, snd yu) k)).
Proof.
  intros I T U E p f i Hp Hf. split.
  - unfold matched_by. destruct (p i) as [j t|b e|n| |] eqn:H; auto. destruct (Hp i j t H) as (_ & x & Hx). rewrite Hx, app_length.
    destruct (Nat.ltb_spec (length x + length (buf j)) (length (buf j))); [lia|reflexivity].
  - unfold matched_by. destruct (p i) as [j t|b e|n| |] eqn:H; auto. destruct (Hp i j t H) as (_ & x & Hx). simpl. rewrite map_err_same.
    rewrite Hx, app_length. destruct (Nat.ltb_spec (length x + length (buf j)) (length (buf j))); [lia|].
    replace (length x + length (buf j) - length (buf j)) with (length x) by lia. rewrite firstn_length_app. simpl.
    destruct (f t j) as [k u|b e|n| |] eqn:H2; auto. destruct (Hf t j k u H2) as (_ & y & Hy). rewrite Hy, !app_length.
    destruct (Nat.ltb_spec (length x + (length y + length (buf k))) (length (buf k))); [lia|].
    destruct (Nat.ltb_spec (length y + length (buf k)) (length (buf k))); [lia|]. simpl.
    replace (length x + (length y + length (buf k)) - length (buf k)) with (length (x ++ y)) by (rewrite app_length; lia).
    replace (length y + length (buf k) - length (buf k)) with (length y) by lia. rewrite app_assoc, !firstn_length_app. reflexivity.
Qed.

Print Assumptions C62_built.
Print Assumptions C62_factor.
Print Assumptions C62_factor_right_refuted.
Print Assumptions C62_map_or.
Print Assumptions C62_or_comm.
Print Assumptions C62_or_comm_refuted.
Print Assumptions C62_look_ahead.
Print Assumptions C62_option.
Print Assumptions C62_matched.

(** * The laws at work *)

(** Both ways to read digits, of which at least two. *)
Example C62_shift_case :
  bmany 9 (vec_collector nat) (RFrom 2) tt (pure (satisfy true (fun c => c <? 10))) (mkInput false [1; 2; 3; 77]) = Data (mkInput false [77]) [1; 2; 3] /\
  bind (fun e => e) (count 9 (vec_collector nat) 2 tt (pure (satisfy true (fun c => c <? 10))) (mkInput false [1; 2; 3; 77]))
    (fun j us => map (app us) (many 9 (vec_collector nat) tt (pure (satisfy true (fun c => c <? 10))) j)) = Data (mkInput false [77]) [1; 2; 3].
Proof. split; reflexivity. Qed.
(** [alike] tells apart: something settles, and two parsers differ. *)
Example C62_alike_case :
  settles (fun fuel => many fuel (vec_collector nat) tt (pure (@any nat)) (mkInput true [1; 2])) (Data (mkInput true []) [1; 2]) /\
  ~ alike (fun fuel => many fuel (vec_collector nat) tt (pure (@any nat)) (mkInput true [1; 2]))
      (fun fuel => count fuel (vec_collector nat) 1 tt (pure (@any nat)) (mkInput true [1; 2])).
Proof.
  assert (H1 : settles (fun fuel => many fuel (vec_collector nat) tt (pure (@any nat)) (mkInput true [1; 2])) (Data (mkInput true []) [1; 2])).
  { split; [discriminate|]. exists 4. intros fuel Hf. do 4 (destruct fuel as [|fuel]; [lia|]). reflexivity. }
  split; [exact H1|]. intros Ha. apply Ha in H1.
  assert (H2 : settles (fun fuel => count fuel (vec_collector nat) 1 tt (pure (@any nat)) (mkInput true [1; 2])) (Data (mkInput true [2]) [1])).
  { split; [discriminate|]. exists 3. intros fuel Hf. do 3 (destruct fuel as [|fuel]; [lia|]). reflexivity. }
  pose proof (settles_det H1 H2) as H. discriminate H.
Qed.
(** A loop for ever: neither way settles. *)
Example C62_alike_loop : forall res, ~ settles (fun fuel => many fuel (vec_collector nat) tt (pure (fun i : input nat => @ret nat nat unit 0 i)) (mkInput true [])) res.
Proof.
  intros res [Hn [f Hf]]. apply Hn. rewrite <- (Hf f (le_n f)). clear.
  unfold many, bmany, parse_many_full, run_iter.
  assert (H : forall acc it, it_buf it = mkInput true [] ->
    from_iter f (iter_next (pure (fun i : input nat => @ret nat nat unit 0 i)) (fun _ : unit => false) (fun d => d)) (fun _ => (0, None))
      (cact (vec_collector nat)) (false, acc) it = FNoFuel).
  { induction f as [|f IH]; intros acc it Hit; [reflexivity|]. simpl. unfold iter_next. simpl. apply IH. exact Hit. }
  simpl cinit. rewrite H; reflexivity.
Qed.
(** Keywords that differ in the first item, one of them after a common sign. *)
Example C62_factor_case :
  let sign := token true Nat.eqb 43 in
  or_ (fun j => bind (fun e => e) (sign j) (fun k _ => string true Nat.eqb [1; 2] k)) (fun j => bind (fun e => e) (sign j) (fun k _ => string true Nat.eqb [3; 4] k))
    (mkInput false [43; 3; 4; 5]) = Data (mkInput false [5]) [3; 4] /\ leaves_suffix sign.
Proof. split; [reflexivity|]. apply C62_built. apply b_token. Qed.
Example C62_matched_case :
  matched_by (fun j => bind (fun e => e) (take 2 j) (fun k _ => satisfy true (fun c => c <? 10) k)) (mkInput false [11; 12; 3; 4]) =
  Data (mkInput false [4]) ([11; 12; 3], 3) /\ leaves_suffix (@take nat 2) /\ leaves_suffix (satisfy true (fun c => c <? 10)).
Proof. split; [reflexivity|]. split; apply C62_built; constructor. Qed.
Example C62_or_comm_case : forall i : input nat,
  or_ (token false Nat.eqb 1) (token false Nat.eqb 2) i = or_ (token false Nat.eqb 2) (token false Nat.eqb 1) i.
Proof.
  intros [l [|a b]]; [destruct l; reflexivity|]. unfold or_, token. simpl. destruct a as [|[|[|a]]]; reflexivity.
Qed.
