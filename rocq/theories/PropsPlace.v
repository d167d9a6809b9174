(** C82: every slice that the library hands out lies in the input, where it should - except for some empty remainders. *)
From Coq Require Import List Bool Arith Lia ZArith.
From Coq.Init Require Import Byte.
From Verif Require Import Base Parsers Combinators Ascii Buffer Stream SpecOpaque OpaqueProofs SafeProofs PropsOpaque Place SpecPlace PlaceProofs.
Import ListNotations.

Set Implicit Arguments.

(** * Parsers *)

(** Values, remainders and error slices of the parsers of src/parsers.rs lie in the input and have the items that the model without
    addresses says they have; remainders and error slices reach to the end of the input, be they empty or not. *)
Theorem C82_parsers : forall I (v : bool) (eqb : I -> I -> bool) mem,
  follows mem end_of (@no_slices I) (@no_slices (error I)) (l_any mem) (@any I) /\
  (forall f, follows mem end_of (@no_slices I) (@no_slices (error I)) (l_satisfy v mem f) (satisfy v f)) /\
  (forall T (f : I -> T) p, follows mem end_of (@no_slices T) (@no_slices (error I)) (l_satisfy_with v mem f p) (satisfy_with v f p)) /\
  (forall t, follows mem end_of (@no_slices I) (@no_slices (error I)) (l_token v eqb mem t) (token v eqb t)) /\
  (forall t, follows mem end_of (@no_slices I) (@no_slices (error I)) (l_not_token v eqb mem t) (not_token v eqb t)) /\
  follows mem end_of (@no_slices (option I)) (@no_slices (error I)) (l_peek mem) (@peek I) /\
  follows mem end_of (@no_slices I) (@no_slices (error I)) (l_peek_next mem) (@peek_next I) /\
  (forall n, follows mem end_of (piece mem) (@no_slices (error I)) (@l_take I n) (@take I n)) /\
  (forall f, follows mem end_of (piece mem) (@no_slices (error I)) (l_take_till mem f) (take_till f)) /\
  (forall S (s : S) f, follows mem end_of (piece mem) (@no_slices (error I)) (l_scan mem s f) (scan s f)) /\
  (forall S (s : S) f, follows mem end_of (fun z x y => piece mem z (fst x) (fst y) /\ snd x = snd y) (@no_slices (error I)) (l_run_scanner mem s f) (run_scanner s f)) /\
  (forall l, follows mem end_of (piece mem) (@no_slices (error I)) (l_string v eqb mem l) (string v eqb l)) /\
  follows mem end_of (@no_slices unit) (@no_slices (error I)) (@l_eof I v) (@eof I v).
Proof.
  intros I v eqb mem. repeat match goal with |- _ /\ _ => split end; intros.
  - apply any_end.
  - apply satisfy_end.
  - apply satisfy_with_end.
  - apply token_end.
  - apply not_token_end.
  - apply peek_end.
  - apply peek_next_end.
  - apply take_end.
  - apply take_till_end.
  - apply scan_end.
  - apply run_scanner_end.
  - apply string_end.
  - apply eof_end.
Qed.
Print Assumptions C82_parsers.

(** The remainder of these three reaches to the end of the input if it is not empty. *)
Theorem C82_rest : forall I (v : bool) (mem : nat -> I),
  (forall f, follows mem rest_of (piece mem) (@no_slices (error I)) (l_take_while mem f) (take_while f)) /\
  (forall f, follows mem rest_of (piece mem) (@no_slices (error I)) (l_take_while1 v mem f) (take_while1 v f)) /\
  follows mem rest_of (piece mem) (@no_slices (error I)) (@l_take_remainder I) (@take_remainder I).
Proof. intros I v mem. split; [|split]; [apply take_while_rest|apply take_while1_rest|apply take_remainder_rest]. Qed.
Print Assumptions C82_rest.

(** The slices they return start where the input does, and are as long as what was consumed. *)
Theorem C82_pieces : forall I (v : bool) (eqb : I -> I -> bool) mem (i : l_input) j d,
  (exists n, @l_take I n i = LData j d) \/ (exists f, l_take_while mem f i = LData j d) \/ (exists f, l_take_while1 v mem f i = LData j d) \/
  (exists f, l_take_till mem f i = LData j d) \/ (exists (S : Type) (s : S) f, l_scan mem s f i = LData j d) \/
  (exists (S : Type) (s s' : S) f, l_run_scanner mem s f i = LData j (d, s')) \/ @l_take_remainder I i = LData j d \/ (exists l, l_string v eqb mem l i = LData j d) \/
  (exists T E (p : l_parser T E) t, l_matched_by p i = LData j (d, t)) ->
  s_at d = s_at (l_buf i) /\ s_len d + s_len (l_buf j) = s_len (l_buf i).
Proof.
  intros I v eqb mem i j d H.
  assert (Hcut : forall T E n (t : slice -> T) x, @from_index T E (l_buf i) n (fun r => to_index (l_buf i) n (fun b => l_ret (t b) (l_replace i r))) = LData j x ->
    x = t (mkSlice (s_at (l_buf i)) n) /\ n <= s_len (l_buf i) /\ s_len (l_buf j) = s_len (l_buf i) - n).
  { intros T E n t x Hx. unfold from_index, to_index in Hx. destruct (Nat.leb_spec n (s_len (l_buf i))) as [Hn|Hn]; [|discriminate]. inversion Hx. subst. auto. }
  assert (Hall : forall E, @to_index slice E (l_buf i) 0 (fun r => l_ret (l_buf i) (l_replace i r)) = LData j d -> s_at d = s_at (l_buf i) /\ s_len d + s_len (l_buf j) = s_len (l_buf i)).
  { intros E Hx. unfold to_index in Hx. cbn [Nat.leb] in Hx. inversion Hx. subst. cbn. lia. }
  assert (Hone : forall E n, @from_index slice E (l_buf i) n (fun r => to_index (l_buf i) n (fun b => l_ret b (l_replace i r))) = LData j d ->
    s_at d = s_at (l_buf i) /\ s_len d + s_len (l_buf j) = s_len (l_buf i)).
  { intros E n Hx. apply (Hcut slice E n (fun b => b)) in Hx. destruct Hx as (-> & H1 & H2). cbn. lia. }
  destruct H as [[n H]|[[f H]|[[f H]|[[f H]|[(S & s & f & H)|[(S & s & s' & f & H)|[H|[[l H]|(T & E & p & t & H)]]]]]]]].
  - unfold l_take in H. destruct (n <=? s_len (l_buf i)); [|discriminate]. eapply Hone, H.
  - unfold l_take_while in H. destruct (position _ _) as [n|]; [eapply Hone, H|]. destruct (l_last i); [|discriminate]. eapply Hall, H.
  - unfold l_take_while1 in H. destruct (position _ _) as [[|n]|]; [discriminate|eapply Hone, H|]. destruct (_ && _); [|discriminate]. eapply Hall, H.
  - unfold l_take_till in H. destruct (position _ _) as [n|]; [eapply Hone, H|discriminate].
  - unfold l_scan in H. destruct (position_st _ _ _) as [[n|] [st|]]; try discriminate. eapply Hone, H.
  - unfold l_run_scanner in H. destruct (position_st _ _ _) as [[n|] st]; [|discriminate]. apply (Hcut (slice * S)%type _ n (fun b => (b, st))) in H. destruct H as (H & H1 & H2).
    inversion H. subst. cbn. lia.
  - eapply Hall, H.
  - unfold l_string in H. destruct (_ <? _); [discriminate|]. unfold to_index in H. destruct (Nat.leb_spec (length l) (s_len (l_buf i))) as [Hl|Hl]; [|discriminate].
    destruct (string_mismatch _ _ _ _) as [m|]; [unfold l_err_string in H; destruct v; [discriminate|]; unfold from_index in H; destruct (_ <=? _); discriminate|].
    unfold from_index in H. destruct (Nat.leb_spec (length l) (s_len (l_buf i))) as [Hl'|Hl']; [|discriminate]. inversion H. subst. cbn. lia.
  - unfold l_matched_by in H. destruct (p i) as [j' t'|b e|n| |]; try discriminate. destruct (Nat.ltb_spec (s_len (l_buf i)) (s_len (l_buf j'))) as [Hl|Hl]; [discriminate|].
    unfold to_index in H. destruct (Nat.leb_spec (s_len (l_buf i) - s_len (l_buf j')) (s_len (l_buf i))) as [Hn|Hn]; [|discriminate]. inversion H. subst. cbn. lia.
Qed.
Print Assumptions C82_pieces.

(** The empty remainder of these three is in the wrong place, the start of the input, exactly if they take all of a non-empty input (the last
    one always does). *)
Theorem C82_misplaced : forall I (v : bool) (mem : nat -> I) i j d,
  (exists f, l_take_while mem f i = LData j d) \/ (exists f, l_take_while1 v mem f i = LData j d) \/ @l_take_remainder I i = LData j d ->
  (d = l_buf i -> l_buf j = mkSlice (s_at (l_buf i)) 0) /\
  (end_of (l_buf j) (l_buf i) <-> d <> l_buf i \/ s_len (l_buf i) = 0).
Proof.
  intros I v mem i j d H.
  assert (Hpart : forall E n, n < s_len (l_buf i) -> @from_index slice E (l_buf i) n (fun r => to_index (l_buf i) n (fun b => l_ret b (l_replace i r))) = LData j d ->
    d <> l_buf i /\ end_of (l_buf j) (l_buf i)).
  { intros E n Hn Hx. unfold from_index, to_index in Hx. destruct (Nat.leb_spec n (s_len (l_buf i))) as [_|]; [|lia]. inversion Hx. subst. split; [|apply end_cut; lia].
    intros F. apply (f_equal s_len) in F. cbn in F. lia. }
  assert (Hall : forall E, @to_index slice E (l_buf i) 0 (fun r => l_ret (l_buf i) (l_replace i r)) = LData j d -> d = l_buf i /\ l_buf j = mkSlice (s_at (l_buf i)) 0).
  { intros E Hx. unfold to_index in Hx. cbn [Nat.leb] in Hx. inversion Hx. auto. }
  assert (Hcase : (d <> l_buf i /\ end_of (l_buf j) (l_buf i)) \/ (d = l_buf i /\ l_buf j = mkSlice (s_at (l_buf i)) 0)).
  { destruct H as [[f H]|[[f H]|H]].
    - unfold l_take_while in H. destruct (position _ _) as [n|] eqn:En; [left; eapply Hpart; [apply position_bound in En; exact En|exact H]|].
      destruct (l_last i); [|discriminate]. right. eapply Hall, H.
    - unfold l_take_while1 in H. destruct (position _ _) as [[|n]|] eqn:En; [discriminate|left; eapply Hpart; [apply position_bound in En; exact En|exact H]|].
      destruct (_ && _); [|discriminate]. right. eapply Hall, H.
    - right. eapply Hall, H. }
  destruct Hcase as [[H1 H2]|[H1 H2]].
  - split; [contradiction|]. split; auto.
  - split; [auto|]. rewrite H2. split.
    + intros [_ H3]. cbn in H3. right. lia.
    + intros [H3|H3]; [contradiction|]. split; [split; cbn; lia|cbn; lia].
Qed.
Print Assumptions C82_misplaced.

(** * Results *)

(** What is built from results keeps slices in place. *)
Theorem C82_results : forall I (mem : nat -> I) Rel T T' E E' (RT : slice -> T -> T' -> Prop) (RE : slice -> E -> E' -> Prop),
  placing Rel ->
  (forall t t', (forall s, RT s t t') -> follows mem Rel RT RE (l_ret t) (ret t')) /\
  (forall e e', (forall s, RE s e e') -> follows mem Rel RT RE (l_err e) (err e')) /\
  (forall n, follows mem Rel RT RE (l_incomplete n) (incomplete n)) /\
  (forall r r', match r, r' with inl t, inl t' => forall s, RT s t t' | inr e, inr e' => forall s, RE s e e' | _, _ => False end ->
    follows mem Rel RT RE (l_from_result r) (from_result r')).
Proof.
  intros I mem Rel T T' E E' RT RE HR. split; [|split; [|split]]; intros.
  - apply follows_ret; assumption.
  - apply follows_err; assumption.
  - apply follows_incomplete.
  - apply follows_from_result; assumption.
Qed.
Print Assumptions C82_results.

(** [bind]: the function behind it may use the value, with its slices, and the remainder. *)
Theorem C82_bind : forall I (mem : nat -> I) Rel T T' U U' E E' F F' (RT : slice -> T -> T' -> Prop) (RU : slice -> U -> U' -> Prop)
    (RE : slice -> E -> E' -> Prop) (RF : slice -> F -> F' -> Prop) conv conv' p p' f f',
  (forall s e e', RE s e e' -> RF s (conv e) (conv' e')) -> follows mem Rel RT RE p p' ->
  (forall s i t t', Rel (l_buf i) s -> RT s t t' -> shows mem Rel s (RU s) (RF s) (f i t) (f' (plain mem i) t')) ->
  follows mem Rel RU RF (fun i => l_bind conv (p i) f) (fun i => bind conv' (p' i) f').
Proof.
  intros I mem Rel T T' U U' E E' F F' RT RU RE RF conv conv' p p' f f' Hc Hp Hf i. eapply (@shows_bind I mem Rel); [apply Hc|apply Hp|].
  intros j t t' Hj Ht. apply Hf; assumption.
Qed.
Print Assumptions C82_bind.

Theorem C82_then : forall I (mem : nat -> I) Rel T T' U U' E E' F F' (RT : slice -> T -> T' -> Prop) (RU : slice -> U -> U' -> Prop)
    (RE : slice -> E -> E' -> Prop) (RF : slice -> F -> F' -> Prop) conv conv' p p' f f',
  placing Rel -> steady Rel RU -> steady Rel RF -> (forall s e e', RE s e e' -> RF s (conv e) (conv' e')) -> follows mem Rel RT RE p p' -> follows mem Rel RU RF f f' ->
  follows mem Rel RU RF (fun i => l_then conv (p i) f) (fun i => then_ conv' (p' i) f').
Proof.
  intros I mem Rel T T' U U' E E' F F' RT RU RE RF conv conv' p p' f f' HR HU HF Hc Hp Hf i. unfold l_then, then_. eapply (@shows_bind I mem Rel); [apply Hc|apply Hp|].
  intros j t t' Hj Ht. eapply shows_up; [exact HR|exact HU|exact HF|exact Hj|apply Hf].
Qed.
Print Assumptions C82_then.

Theorem C82_maps : forall I (mem : nat -> I) Rel T T' U U' E E' (RT : slice -> T -> T' -> Prop) (RU : slice -> U -> U' -> Prop) (RE : slice -> E -> E' -> Prop) p p',
  follows mem Rel RT RE p p' ->
  (forall f f', (forall s t t', RT s t t' -> RU s (f t) (f' t')) -> follows mem Rel RU RE (fun i => l_map f (p i)) (fun i => map f' (p' i))) /\
  (forall f f', (forall s t t', RE s t t' -> RU s (f t) (f' t')) -> follows mem Rel RT RU (fun i => l_map_err f (p i)) (fun i => map_err f' (p' i))) /\
  (forall W W' (RW : W -> W' -> Prop) f f' i w w', (forall t t' w w', RT (l_buf i) t t' -> RW w w' -> RW (f t w) (f' t' w')) -> RW w w' ->
    shows mem Rel (l_buf i) (RT (l_buf i)) (RE (l_buf i)) (fst (l_inspect f (p i) w)) (fst (inspect f' (p' (plain mem i)) w')) /\
    RW (snd (l_inspect f (p i) w)) (snd (inspect f' (p' (plain mem i)) w'))).
Proof.
  intros I mem Rel T T' U U' E E' RT RU RE p p' Hp. split; [|split].
  - intros f f' Hf i. eapply (@shows_map I mem Rel); [|apply Hp]. apply Hf.
  - intros f f' Hf i. eapply (@shows_map_err I mem Rel); [|apply Hp]. apply Hf.
  - intros W W' RW f f' i w w' Hf Hw. apply (@shows_inspect I mem Rel); [exact Hf|exact Hw|apply Hp].
Qed.
Print Assumptions C82_maps.

(** * Combinators *)

Theorem C82_alternatives : forall I (mem : nat -> I) Rel T T' E E' (RT : slice -> T -> T' -> Prop) (RE : slice -> E -> E' -> Prop) f f',
  placing Rel -> follows mem Rel RT RE f f' ->
  (forall d d', (forall s, RT s d d') -> follows mem Rel RT RE (l_option_ f d) (option_ f' d')) /\
  (forall g g', follows mem Rel RT RE g g' -> follows mem Rel RT RE (l_or_ f g) (or_ f' g')) /\
  follows mem Rel RT RE (l_look_ahead f) (look_ahead f') /\
  follows mem Rel (fun s x y => piece mem s (fst x) (fst y) /\ RT s (snd x) (snd y)) RE (l_matched_by f) (matched_by f').
Proof.
  intros I mem Rel T T' E E' RT RE f f' HR Hf. split; [|split; [|split]].
  - intros. apply follows_option; assumption.
  - intros. apply follows_or; assumption.
  - apply follows_look_ahead; assumption.
  - apply follows_matched_by; assumption.
Qed.
Print Assumptions C82_alternatives.

(** The loops, for every kind of range, with closures that keep state and collections that hold the slices. *)
Theorem C82_loops : forall I (mem : nat -> I) Rel S S' X X' U U' V V' T T' C C' E E' N N'
    (RS : S -> S' -> Prop) (RX : X -> X' -> Prop) (RU : slice -> U -> U' -> Prop) (RV : slice -> V -> V' -> Prop) (RT : slice -> T -> T' -> Prop)
    (RC : slice -> C -> C' -> Prop) (RE : slice -> E -> E' -> Prop) (RN : slice -> N -> N' -> Prop)
    (p : l_sparser S U E) (q : sparser S' I U' E') (e : l_sparser X V N) (e' : sparser X' I V' N') (col : collector U T C) (col' : collector U' T' C') fuel s s' x x',
  placing Rel -> steady Rel RU -> steady Rel RE -> steady Rel RV -> steady Rel RN ->
  s_follows mem Rel RS RU RE p q -> s_follows mem Rel RX RV RN e e' -> (forall z, col_rel (RU z) (RT z) (RC z) col col') -> RS s s' -> RX x x' ->
  (forall r, follows mem Rel RT RE (l_bmany fuel col r s p) (bmany fuel col' r s' q)) /\
  (forall r, follows mem Rel (@no_slices unit) RE (l_bskip_many fuel r s p) (bskip_many fuel r s' q)) /\
  (forall r, follows mem Rel RT RE (l_bmany_till fuel col r s x p e) (bmany_till fuel col' r s' x' q e')) /\
  (forall conv conv', (forall z a a', RN z a a' -> RE z (conv a) (conv' a')) ->
    follows mem Rel RT RE (l_sep_by fuel col conv s x p e) (sep_by fuel col' conv' s' x' q e') /\
    follows mem Rel RT RE (l_sep_by1 fuel col conv s x p e) (sep_by1 fuel col' conv' s' x' q e')).
Proof.
  intros I mem Rel S S' X X' U U' V V' T T' C C' E E' N N' RS RX RU RV RT RC RE RN p q e e' col col' fuel s s' x x' HR HU HE HV HN Hp He Hc Hs Hx.
  split; [|split; [|split]].
  - intros r. eapply follows_many; eassumption.
  - intros r. eapply follows_skip; eassumption.
  - intros r. eapply (@follows_till I mem Rel HR); eassumption.
  - intros conv conv' Hconv. pose proof (@sep_follows I mem Rel HR _ _ _ _ _ _ _ _ _ _ _ _ RS RX RU RV RE RN p q e e' conv conv' HU HE HV HN Hconv Hp He) as Hi.
    split; unfold l_sep_by, l_sep_by1; [unfold sep_by|unfold sep_by1]; (eapply follows_many; [exact HR|exact HU|exact HE|exact Hi|exact Hc|split; [reflexivity|split; assumption]]).
Qed.
Print Assumptions C82_loops.

(** The functions of src/combinators/mod.rs named after the loops are these loops. *)
Theorem C82_named_loops : forall I (mem : nat -> I) Rel S S' X X' U U' V V' T T' C C' E E' N N'
    (RS : S -> S' -> Prop) (RX : X -> X' -> Prop) (RU : slice -> U -> U' -> Prop) (RV : slice -> V -> V' -> Prop) (RT : slice -> T -> T' -> Prop)
    (RC : slice -> C -> C' -> Prop) (RE : slice -> E -> E' -> Prop) (RN : slice -> N -> N' -> Prop)
    (p : l_sparser S U E) (q : sparser S' I U' E') (e : l_sparser X V N) (e' : sparser X' I V' N') (col : collector U T C) (col' : collector U' T' C') fuel s s' x x',
  placing Rel -> steady Rel RU -> steady Rel RE -> steady Rel RV -> steady Rel RN ->
  s_follows mem Rel RS RU RE p q -> s_follows mem Rel RX RV RN e e' -> (forall z, col_rel (RU z) (RT z) (RC z) col col') -> RS s s' -> RX x x' ->
  (forall n, follows mem Rel RT RE (l_count fuel col n s p) (count fuel col' n s' q)) /\
  follows mem Rel RT RE (l_many fuel col s p) (many fuel col' s' q) /\
  follows mem Rel RT RE (l_many1 fuel col s p) (many1 fuel col' s' q) /\
  follows mem Rel (@no_slices unit) RE (l_skip_many fuel s p) (skip_many fuel s' q) /\
  follows mem Rel (@no_slices unit) RE (l_skip_many1 fuel s p) (skip_many1 fuel s' q) /\
  follows mem Rel RT RE (l_many_till fuel col s x p e) (many_till fuel col' s' x' q e').
Proof.
  intros I mem Rel S S' X X' U U' V V' T T' C C' E E' N N' RS RX RU RV RT RC RE RN p q e e' col col' fuel s s' x x' HR HU HE HV HN Hp He Hc Hs Hx.
  destruct (@C82_loops I mem Rel S S' X X' U U' V V' T T' C C' E E' N N' RS RX RU RV RT RC RE RN p q e e' col col' fuel s s' x x' HR HU HE HV HN Hp He Hc Hs Hx) as (H1 & H2 & H3 & _).
  split; [|split; [|split; [|split; [|split]]]].
  - intros n. exact (H1 (RExact n)).
  - exact (H1 RFull).
  - exact (H1 (RFrom 1)).
  - exact (H2 RFull).
  - exact (H2 (RFrom 1)).
  - exact (H3 RFull).
Qed.
Print Assumptions C82_named_loops.

(** src/ascii.rs. *)
Theorem C82_ascii : forall v checked mem,
  follows mem rest_of (@no_slices unit) (@no_slices (error byte)) (l_skip_whitespace mem) skip_whitespace /\
  follows mem end_of (@no_slices byte) (@no_slices (error byte)) (l_digit v mem) (digit v) /\
  (forall T, follows mem rest_of (@no_slices Z) (@no_slices (error byte)) (l_decimal v checked mem T) (decimal v checked T)) /\
  (forall T f f', follows mem rest_of (@no_slices Z) (@no_slices (error byte)) f f' ->
    follows mem rest_of (@no_slices Z) (@no_slices (error byte)) (l_signed v checked mem T f) (signed v checked T f')).
Proof.
  intros v checked mem. split; [|split; [|split]].
  - intros i. unfold l_skip_whitespace, skip_whitespace. eapply (@shows_map byte mem rest_of); [|apply (take_while_rest mem is_whitespace i)]. reflexivity.
  - apply satisfy_end.
  - intros T i. unfold l_decimal, decimal. eapply (@shows_bind byte mem rest_of); [|apply (take_while1_rest v mem is_digit i)|].
    + intros e e' He. exact He.
    + intros j t t' Hj [H1 H2]. rewrite H2. destruct (to_decimal checked T t') as [z|]; [|exact Logic.I]. split; [split; [reflexivity|exact Hj]|reflexivity].
  - intros T f f' Hf i. unfold l_signed, signed.
    assert (Hsign : follows mem rest_of (@no_slices Z) (@no_slices (error byte))
      (l_option_ (fun i => l_map (fun s => if byte_eqb s "+" then 1%Z else (-1)%Z) (l_satisfy v mem (fun c => byte_eqb c "-" || byte_eqb c "+") i)) 1%Z)
      (option_ (fun i => map (fun s => if byte_eqb s "+" then 1%Z else (-1)%Z) (satisfy v (fun c => byte_eqb c "-" || byte_eqb c "+") i)) 1%Z)).
    { apply follows_option; [apply placing_rest| |reflexivity]. intros j. eapply (@shows_map byte mem rest_of); [|apply follows_weaker with (Rel := end_of); [apply end_rest|apply satisfy_end]].
      intros t t' Ht. rewrite Ht. reflexivity. }
    eapply (@shows_bind byte mem rest_of); [|apply (Hsign i)|].
    + intros e e' He. exact He.
    + intros j t t' Hj Ht. unfold no_slices in Ht. subst t'. specialize (Hf j).
      destruct (f j) as [k u|c e|n| |], (f' (plain mem j)) as [k' u'|c' e'|n'| |]; cbn [shows] in *; try contradiction; auto.
      * destruct Hf as [[Hk Hr] Hu]. unfold no_slices in Hu. subst u'. destruct (int_result T checked (t * u)) as [w|]; [|exact Logic.I].
        split; [split; [exact Hk|exact (pl_trans placing_rest _ _ _ Hr Hj)]|reflexivity].
      * destruct Hf as [[Hk Hr] Hu]. split; [split; [exact Hk|exact (pl_trans placing_rest _ _ _ Hr Hj)]|exact Hu].
Qed.
Print Assumptions C82_ascii.

(** * Positions *)

(** The length of what remains tells the position of every error and remainder that is not empty, and so does its address; if remainders reach
    to the end even when they are empty, the two always agree. *)
Theorem C82_position : forall b s,
  (rest_of b s -> s_len b <> 0 -> by_address s b = by_length s b) /\
  (end_of b s -> by_address s b = by_length s b) /\
  (inside b s -> by_address s b <= by_length s b).
Proof. intros b s. unfold rest_of, end_of, inside, by_address, by_length. repeat split; lia. Qed.
Print Assumptions C82_position.

(** An error behind something that was taken to the end of the input: the address says it is at the start of what was taken, the length that
    it is at the end of the input. *)
Theorem C82_position_refuted : forall I (v : bool) (mem : nat -> I) E (e : E) (f : I -> bool) (i : l_input),
  l_last i = true -> s_len (l_buf i) <> 0 -> (forall x, List.In x (read mem (l_buf i)) -> f x = true) ->
  forall p, p = l_take_while mem f \/ p = l_take_while1 v mem f \/ p = @l_take_remainder I ->
  exists b, l_bind (fun _ => e) (p i) (fun j _ => @l_err unit E e j) = LError b e /\
    by_address (l_buf i) b = 0 /\ by_length (l_buf i) b = s_len (l_buf i) /\ by_address (l_buf i) b <> by_length (l_buf i) b.
Proof.
  intros I v mem E e f i Hl Hn Hf p Hp. exists (mkSlice (s_at (l_buf i)) 0).
  assert (Hpos : position (fun c => Bool.eqb (f c) false) (read mem (l_buf i)) = None).
  { revert Hf. generalize (read mem (l_buf i)). intros l. induction l as [|c l IH]; intros Hf; [reflexivity|]. cbn [position]. rewrite (Hf c) by (left; reflexivity). cbn [Bool.eqb].
    rewrite IH; [reflexivity|]. intros x Hx. apply Hf. right. exact Hx. }
  assert (Hr : p i = LData (mkLInput (l_last i) (mkSlice (s_at (l_buf i)) 0)) (l_buf i)).
  { destruct Hp as [->|[->| ->]].
    - unfold l_take_while. cbv zeta. rewrite Hpos, Hl. unfold to_index. cbn [Nat.leb]. unfold l_replace. rewrite Hl. reflexivity.
    - unfold l_take_while1. cbv zeta. rewrite Hpos, Hl. destruct (Nat.ltb_spec 0 (s_len (l_buf i))) as [_|]; [|lia]. unfold to_index. cbn [Nat.leb andb]. unfold l_replace. rewrite Hl. reflexivity.
    - reflexivity. }
  rewrite Hr. cbn [l_bind]. split; [reflexivity|]. unfold by_address, by_length. cbn [s_at s_len]. lia.
Qed.
Print Assumptions C82_position_refuted.

(** * Running parsers *)

(** [parse_only]: values and errors have their slices in the slice given. *)
Theorem C82_parse_only : forall I (mem : nat -> I) Rel T T' E E' (RT : slice -> T -> T' -> Prop) (RE : slice -> E -> E' -> Prop) p p' s,
  placing Rel -> follows mem Rel RT RE p p' ->
  match l_parse_only p s, parse_only p' (read mem s) with
  | Done (LOk t), OOk t' => RT s t t'
  | Done (LParseError b e), OErr (PErr c e') => Rel b s /\ read mem b = c /\ RE s e e'
  | Done (LTooShort n), OErr (PIncomplete m) => n = m
  | Panicked, OPanic => True
  | Stuck, ONoFuel => True
  | _, _ => False
  end.
Proof.
  intros I mem Rel T T' E E' RT RE p p' s HR Hp. specialize (Hp (mkLInput true s)). unfold l_parse_only, parse_only. unfold plain in Hp. cbn [l_last l_buf] in Hp.
  destruct (p (mkLInput true s)) as [j t|c e|n| |], (p' (mkInput true (read mem s))) as [j' t'|c' e'|n'| |]; cbn [shows] in Hp; try contradiction; auto.
  - apply Hp.
  - destruct Hp as [[H1 H2] H3]. auto.
Qed.
Print Assumptions C82_parse_only.

(** A stream over a slice: the misplaced remainders do no harm, as the position is moved by lengths.  Every answer has its slices in the slice of
    the stream, behind the position before the call; the address of an error that is not empty is the new position. *)
Theorem C82_stream : forall I (mem : nat -> I) T T' E E' (RT : slice -> T -> T' -> Prop) (RE : slice -> E -> E' -> Prop) p p' s,
  follows mem rest_of RT RE p p' ->
  let rest := mkSlice (s_at (ls_slice s) + ls_pos s) (s_len (ls_slice s) - ls_pos s) in
  match l_slice_parse p s, slice_parse p' (plain_stream mem s) with
  | Done (s1, x), Done (s2, y) =>
      s2 = plain_stream mem s1 /\ ls_slice s1 = ls_slice s /\ answers_in mem rest (RT rest) (RE rest) x y /\ inside rest (ls_slice s) /\
      match x with LParseError b _ => ls_pos s1 = by_length (ls_slice s) b /\ (s_len b <> 0 -> ls_pos s1 = by_address (ls_slice s) b) | _ => True end
  | Panicked, Panicked => True
  | Stuck, Stuck => True
  | _, _ => False
  end.
Proof.
  intros I mem T T' E E' RT RE p p' s Hp rest. unfold l_slice_parse, slice_parse, slice_is_empty, slice_len. cbn [plain_stream ss_pos ss_slice]. rewrite read_length.
  unfold usize_sub. destruct (Nat.leb_spec (ls_pos s) (s_len (ls_slice s))) as [Hle|Hle]; cbn [run_bind]; [|exact Logic.I].
  assert (Hin : inside rest (ls_slice s)) by (unfold inside, rest; cbn; lia).
  destruct (Nat.eqb_spec (s_len (ls_slice s) - ls_pos s) 0) as [H0|H0].
  { repeat (split; [solve [reflexivity|assumption|exact Logic.I]|]). exact Logic.I. }
  assert (Hrd : read mem rest = skipn (ls_pos s) (read mem (ls_slice s))) by (unfold rest; rewrite read_from; destruct (ls_slice s); reflexivity).
  specialize (Hp (mkLInput true rest)). unfold plain in Hp. cbn [l_last l_buf] in Hp. rewrite Hrd in Hp. fold rest.
  destruct (p (mkLInput true rest)) as [j t|c e|n| |], (p' (mkInput true (skipn (ls_pos s) (read mem (ls_slice s))))) as [j' t'|c' e'|n'| |]; cbn [shows] in Hp; try contradiction; auto.
  - destruct Hp as [[-> Hr] Ht]. cbn [plain buf]. rewrite read_length. cbn [run_bind].
    destruct (Nat.leb_spec (s_len (l_buf j)) (s_len (ls_slice s) - ls_pos s)) as [Hj|Hj]; cbn [run_bind]; [|exact Logic.I].
    split; [reflexivity|]. split; [reflexivity|]. split; [exact Ht|]. split; [exact Hin|exact Logic.I].
  - destruct Hp as [[-> Hr] Ht]. rewrite read_length. cbn [run_bind].
    destruct (Nat.leb_spec (s_len c) (s_len (ls_slice s) - ls_pos s)) as [Hj|Hj]; cbn [run_bind]; [|exact Logic.I].
    split; [reflexivity|]. split; [reflexivity|]. split; [split; [apply Hr|split; [reflexivity|exact Ht]]|]. split; [exact Hin|].
    destruct Hr as [Hr1 Hr2]. unfold inside, by_length, by_address, rest in *. cbn [ls_pos ls_slice s_at s_len] in *. split; [lia|]. intros Hc. lia.
  - subst n'. cbn [run_bind].
    split; [reflexivity|]. split; [reflexivity|]. split; [reflexivity|]. split; [exact Hin|exact Logic.I].
Qed.
Print Assumptions C82_stream.

(** * Examples *)

(** Fields between commas, at address 100, and the whole of the record as it was matched. *)
Definition fields_at (mem : nat -> nat) : l_parser (slice * list slice) (error nat) :=
  l_matched_by (l_sep_by1 10 (vec_collector slice) (fun e => e) tt tt (l_pure (l_take_while1 true mem (fun c => negb (c =? 44)))) (l_pure (l_token true Nat.eqb mem 44))).
Definition fields_of : parser nat (list nat * list (list nat)) (error nat) :=
  matched_by (sep_by1 10 (vec_collector (list nat)) (fun e => e) tt tt (pure (take_while1 true (fun c => negb (c =? 44)))) (pure (token true Nat.eqb 44))).

(** These follow each other, in any memory. *)
Lemma fields_follow : forall mem,
  follows mem rest_of (fun s x y => piece mem s (fst x) (fst y) /\ Forall2 (piece mem s) (snd x) (snd y)) (@no_slices (error nat)) (fields_at mem) fields_of.
Proof.
  intros mem. apply (follows_matched_by (RT := fun s => Forall2 (piece mem s))).
  pose proof (@C82_loops nat mem rest_of unit unit unit unit slice (list nat) nat nat (list slice) (list (list nat)) _ _ (error nat) (error nat) (error nat) (error nat)
    eq eq (piece mem) (@no_slices nat) (fun s => Forall2 (piece mem s)) (fun s => prod_rel eq (Forall2 (piece mem s))) (@no_slices (error nat)) (@no_slices (error nat))
    (l_pure (l_take_while1 true mem (fun c => negb (c =? 44)))) (pure (take_while1 true (fun c => negb (c =? 44))))
    (l_pure (l_token true Nat.eqb mem 44)) (pure (token true Nat.eqb 44)) (vec_collector slice) (vec_collector (list nat)) 10 tt tt tt tt
    placing_rest (@steady_piece nat mem rest_of placing_rest) (@steady_none rest_of _) (@steady_none rest_of _) (@steady_none rest_of _)) as H.
  apply H; auto.
  - intros s s' _ i. split; [apply take_while1_rest|reflexivity].
  - intros s s' _ i. split; [|reflexivity]. apply follows_weaker with (Rel := end_of); [apply end_rest|apply token_end].
  - intros z. apply vec_rel.
Qed.

(** Memory with the text [12,3,45] at address 100. *)
Definition memory (a : nat) : nat := nth (a - 100) [49; 50; 44; 51; 44; 52; 53] 0.
Example C82_fields :
  fields_at memory (mkLInput true (mkSlice 100 7)) = LData (mkLInput true (mkSlice 105 0)) (mkSlice 100 7, [mkSlice 100 2; mkSlice 103 1; mkSlice 105 2]) /\
  fields_of (mkInput true [49; 50; 44; 51; 44; 52; 53]) = Data (mkInput true []) ([49; 50; 44; 51; 44; 52; 53], [[49; 50]; [51]; [52; 53]]) /\
  read memory (mkSlice 103 1) = [51] /\
  (* the remainder is empty and lies at 105, the start of the last field; the end of the input is 107 *)
  ~ end_of (mkSlice 105 0) (mkSlice 100 7).
Proof. split; [reflexivity|split; [reflexivity|split; [reflexivity|]]]. intros [_ H]. cbn in H. lia. Qed.

Example C82_position_met : l_last (mkLInput true (mkSlice 105 2)) = true /\ s_len (mkSlice 105 2) <> 0 /\
  (forall x, List.In x (read memory (mkSlice 105 2)) -> negb (x =? 44) = true) /\
  l_bind (fun _ => tt) (l_take_while memory (fun c => negb (c =? 44)) (mkLInput true (mkSlice 105 2))) (fun j _ => @l_err unit unit tt j) = LError (mkSlice 105 0) tt.
Proof. split; [reflexivity|split; [discriminate|split; [|reflexivity]]]. intros x [<-|[<-|[]]]; reflexivity. Qed.

(** A stream with the text, from which fields and commas are parsed in turn; the last field leaves an empty slice at the wrong place, but the
    stream is at its end. *)
Example C82_stream_met :
  let field := l_take_while1 true memory (fun c => negb (c =? 44)) in
  let comma := l_token true Nat.eqb memory 44 in
  let s0 := mkLStream 3 (mkSlice 100 7) in
  l_slice_parse field s0 = Done (mkLStream 4 (mkSlice 100 7), LOk (mkSlice 103 1)) /\
  l_slice_parse field (mkLStream 4 (mkSlice 100 7)) = Done (mkLStream 4 (mkSlice 100 7), LParseError (mkSlice 104 3) (err_unexpected true)) /\
  l_slice_parse comma (mkLStream 4 (mkSlice 100 7)) = Done (mkLStream 5 (mkSlice 100 7), LOk 44) /\
  l_slice_parse field (mkLStream 5 (mkSlice 100 7)) = Done (mkLStream 7 (mkSlice 100 7), LOk (mkSlice 105 2)) /\
  l_slice_parse field (mkLStream 7 (mkSlice 100 7)) = Done (mkLStream 7 (mkSlice 100 7), LEndOfInput).
Proof. repeat split. Qed.
