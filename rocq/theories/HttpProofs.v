(** Proofs about examples/http_parser.rs. *)
From Coq Require Import List Bool Arith NArith Lia.
From Coq.Init Require Import Byte.
From Coq.Strings Require Import Byte.
From Verif Require Import Base Parsers Combinators Ascii SpecBase SpecIter SpecSep SpecSafe Http SpecHttp
  BaseProofs IterProofs ManyProofs SepProofs TermProofs SafeProofs StableProofs.
Import ListNotations.

Set Implicit Arguments.

(** * bmany, when its parser is known on short inputs only *)
Section Cong.
  Context {S I U E : Type}.
  Variables p p' : sparser S I U E.
  Variable L : nat.
  Hypothesis Heq : forall s i, length (buf i) <= L -> p s i = p' s i.
  Hypothesis Hshrink : forall s i j u s', p' s i = (Data j u, s') -> length (buf j) <= length (buf i).

  Lemma from_iter_cong : forall T C D pre (on : D -> D) hint (act : C -> caction U T C) fuel c it, length (buf (it_buf it)) <= L ->
    from_iter fuel (iter_next p pre on) hint act c it = from_iter fuel (iter_next p' pre on) hint act c it.
  Proof.
    intros T C D pre on hint act. induction fuel as [|fuel IH]; intros c it H; [reflexivity|]. cbn [from_iter]. destruct (act c); auto.
    unfold iter_next. destruct (pre (it_data it)); [apply IH; assumption|]. rewrite Heq by assumption.
    destruct (p' (it_ps it) (it_buf it)) as [[j u|b e|n| |] s'] eqn:Hp; auto; apply IH; cbn [it_buf]; auto.
    apply Hshrink in Hp. lia.
  Qed.

  Lemma run_iter_cong : forall T C D (col : collector U T C) pre (on : D -> D) hint fin fuel i s0 d, length (buf i) <= L ->
    run_iter fuel col i s0 p d hint pre on fin = run_iter fuel col i s0 p' d hint pre on fin.
  Proof. intros. unfold run_iter. rewrite from_iter_cong by assumption. reflexivity. Qed.

  Lemma bmany_cong : forall T C fuel (col : collector U T C) r s0 i, length (buf i) <= L ->
    bmany fuel col r s0 p i = bmany fuel col r s0 p' i.
  Proof.
    intros T C fuel col r s0 i H. destruct r as [a b|a| |b|n]; cbn [bmany]; try (apply run_iter_cong; assumption).
    unfold parse_many_range. destruct (negb (a <=? b)); [reflexivity|]. apply run_iter_cong. assumption.
  Qed.
End Cong.

Lemma bmany_outcome : forall S I U E (p : sparser S I U E) r fuel s0 i res, returns p -> consuming p -> nonempty r ->
  many_outcome r p s0 i res -> length (buf i) + 2 <= fuel -> bmany fuel (vec_collector U) r s0 p i = res.
Proof.
  intros S I U E p r fuel s0 i res Hr Hc Hn Ho Hf. eapply many_outcome_det; [|exact Ho].
  eapply bmany_sound; eauto. apply bmany_terminates; assumption.
Qed.

(** * Byte classes *)
Lemma byte_eqb_eq : forall c d, byte_eqb c d = true <-> c = d.
Proof. intros c d. split; [apply Byte.byte_dec_bl|apply Byte.byte_dec_lb]. Qed.

Lemma in_existsb : forall c l, In c l <-> existsb (byte_eqb c) l = true.
Proof.
  intros c l. rewrite existsb_exists. split.
  - intros H. exists c. split; [assumption|]. apply byte_eqb_eq. reflexivity.
  - intros (d & H & He). apply byte_eqb_eq in He. subst. assumption.
Qed.

Lemma token_spec : forall c, is_token c = true <-> token_byte c.
Proof.
  intros c. unfold token_byte. rewrite in_existsb, not_true_iff_false.
  replace (is_token c) with ((33 <=? Byte.to_N c)%N && (Byte.to_N c <=? 127)%N && negb (existsb (byte_eqb c) separators))%bool
    by (destruct c; reflexivity).
  rewrite !andb_true_iff, negb_true_iff, !N.leb_le. tauto.
Qed.
Lemma blank_spec : forall c, is_horizontal_space c = true <-> blank c.
Proof. intros c. unfold blank. rewrite in_existsb. destruct c; vm_compute; split; auto. Qed.
Lemma line_spec : forall c, is_end_of_line c = false <-> line_byte c.
Proof. intros c. unfold line_byte. rewrite in_existsb, not_true_iff_false. destruct c; vm_compute; split; auto. Qed.
Lemma version_spec : forall c, is_http_version c = true <-> version_byte c.
Proof. intros c. unfold version_byte. rewrite in_existsb. destruct c; vm_compute; split; auto. Qed.
Lemma space_spec : forall c, is_space c = true <-> c = " "%byte.
Proof. intros c. apply byte_eqb_eq. Qed.
Lemma not_space_spec : forall c, is_not_space c = true <-> c <> " "%byte.
Proof. intros c. unfold is_not_space. rewrite negb_true_iff, <- not_true_iff_false, byte_eqb_eq. tauto. Qed.

Lemma false_of : forall (f : byte -> bool) (P : byte -> Prop) c, (forall d, f d = true <-> P d) -> ~ P c -> f c = false.
Proof. intros f P c H Hn. apply not_true_iff_false. rewrite H. assumption. Qed.

Section Http.
  Variable verbose : bool.

  (** * What a statement list does *)
  Lemma stmt_unfold : forall T U (p : u8_parser T) (k : T -> u8_parser U) i,
    stmt p k i = match p i with Data j t => k t j | Error b e => Error b e | Incomplete n => Incomplete n | Panic => Panic | NoFuel => NoFuel end.
  Proof. intros T U p k i. unfold stmt, bind. destruct (p i) as [j t|b e|n| |]; auto. destruct (k t j); reflexivity. Qed.
  Lemma stmt_data : forall T U (p : u8_parser T) (k : T -> u8_parser U) i j v,
    stmt p k i = Data j v <-> exists i1 t, p i = Data i1 t /\ k t i1 = Data j v.
  Proof.
    intros T U p k i j v. rewrite ?stmt_unfold. split.
    - intros H. destruct (p i) as [i1 t|b e|n| |]; try discriminate. eauto.
    - intros (i1 & t & H1 & H2). rewrite H1. assumption.
  Qed.
  Lemma stmt_step : forall T U (p : u8_parser T) (k : T -> u8_parser U) i i1 t, p i = Data i1 t -> stmt p k i = k t i1.
  Proof. intros T U p k i i1 t H. rewrite ?stmt_unfold. rewrite H. reflexivity. Qed.

  (** [answers L p]: on inputs of at most [L] bytes, [p] neither panics nor runs out of fuel. *)
  Definition answers {T} (L : nat) (p : u8_parser T) : Prop := forall i, length (buf i) <= L -> p i <> Panic /\ p i <> NoFuel.
  Definition shrinks {T} (p : u8_parser T) : Prop := forall i j v, p i = Data j v -> length (buf j) <= length (buf i).

  Lemma built_shrinks : forall T (p : u8_parser T), built p -> shrinks p.
  Proof.
    intros T p H i j v Hp. pose proof (built_well_behaved H i) as Hw. rewrite Hp in Hw. destruct Hw as [_ (pre & Hs)].
    rewrite Hs, app_length. lia.
  Qed.

  Lemma stmt_answers : forall T U L (p : u8_parser T) (k : T -> u8_parser U), answers L p -> shrinks p -> (forall t, answers L (k t)) -> answers L (stmt p k).
  Proof.
    intros T U L p k Hp Hs Hk i Hi. rewrite ?stmt_unfold. destruct (Hp i Hi) as [H1 H2].
    destruct (p i) as [i1 t|b e|n| |] eqn:H; try (split; discriminate); try contradiction. apply Hk. apply Hs in H. lia.
  Qed.
  Lemma ret_answers : forall T L (t : T), answers L (ret t).
  Proof. intros T L t i _. split; discriminate. Qed.
  Lemma token_answers : forall L t, answers L (token verbose byte_eqb t).
  Proof.
    intros L t [l b] _. unfold token, first. cbn [buf]. destruct b as [|c b]; [split; discriminate|]. destruct (byte_eqb t c); split; discriminate.
  Qed.
  Lemma take_while1_answers : forall L f, answers L (take_while1 verbose f).
  Proof.
    intros L f [l b] _. destruct (proj1 (@take_while1_spec byte verbose f l b _) eq_refl) as [(x & c & y & _ & _ & _ & _ & H)|[(c & y & _ & _ & H)|[(_ & _ & _ & H)|(_ & _ & H)]]]; rewrite H; split; discriminate.
  Qed.
  Lemma take_till_answers : forall L f, answers L (take_till f).
  Proof.
    intros L f [l b] _. destruct (proj1 (@take_till_spec byte f l b _) eq_refl) as [(x & c & y & _ & _ & _ & H)|(_ & H)]; rewrite H; split; discriminate.
  Qed.
  Lemma string_answers : forall L s, answers L (string verbose byte_eqb s).
  Proof.
    intros L s [l b] _. destruct (@string_total byte byte_eqb s b) as [H|[(x & y & -> & H)|(x & y & n & -> & H1 & H2)]].
    - rewrite (@string_short byte verbose byte_eqb s l b (length s - length b)) by lia. split; discriminate.
    - rewrite string_match by assumption. split; discriminate.
    - rewrite (@string_mismatch_spec byte verbose byte_eqb s l x y n H1 H2). destruct verbose; split; discriminate.
  Qed.
  Lemma or_answers : forall T L (p q : u8_parser T), answers L p -> answers L q -> answers L (or_ p q).
  Proof.
    intros T L p q Hp Hq i Hi. destruct (Hp i Hi) as [H1 H2], (Hq i Hi) as [H3 H4]. unfold or_.
    destruct (p i); try (split; discriminate); try contradiction; try (split; assumption). destruct (last i); [split; assumption|split; discriminate].
  Qed.

  (** * Stream-safety *)
  Lemma safe_stmt : forall T U (p : u8_parser T) (k : T -> u8_parser U), safe p -> (forall t, safe (k t)) -> safe (stmt p k).
  Proof. intros T U p k Hp Hk. apply (s_bind (fun e => e) (fun i t => k t i) Hp Hk). Qed.
  Lemma end_of_line_safe : safe (end_of_line verbose).
  Proof. apply s_or; [|apply s_token]. apply safe_stmt; [apply s_token|]. intros _. apply safe_stmt; [apply s_token|]. intros _. apply s_ret. Qed.
  Lemma http_version_safe : safe (http_version verbose).
  Proof. apply safe_stmt; [apply s_string|]. intros _. apply s_take_while1. Qed.
  Lemma request_line_safe : safe (request_line verbose).
  Proof. repeat (apply safe_stmt; [first [apply s_take_while1|apply http_version_safe]|intros ?]). apply s_ret. Qed.
  Lemma message_header_line_safe : safe (message_header_line verbose).
  Proof. repeat (apply safe_stmt; [first [apply s_take_while1|apply s_take_till|apply end_of_line_safe]|intros ?]). apply s_ret. Qed.
  Lemma message_header_safe : forall fuel, safe (message_header verbose fuel).
  Proof.
    intros fuel. apply safe_stmt; [apply s_take_while1|intros ?]. apply safe_stmt; [apply s_token|intros ?]. apply safe_stmt; [|intros ?; apply s_ret].
    apply safe_many1; [apply vec_exhausts|apply pure_carries|]. intros ?. apply message_header_line_safe.
  Qed.
  Lemma request_fuel_safe : forall fuel, safe (request_fuel verbose fuel).
  Proof.
    intros fuel. apply safe_stmt; [apply request_line_safe|intros ?]. apply safe_stmt; [apply end_of_line_safe|intros ?]. apply safe_stmt.
    - apply safe_many; [apply vec_exhausts|apply pure_carries|]. intros ?. apply message_header_safe.
    - intros ?. apply safe_stmt; [apply end_of_line_safe|intros ?]. apply s_ret.
  Qed.

  (** * Parsers against formats *)

  (** Whatever [p] accepts is such a text. *)
  Definition reads {T} (F : list byte -> T -> Prop) (p : u8_parser T) : Prop :=
    forall i j v, p i = Data j v -> last j = last i /\ exists w, F w v /\ buf i = w ++ buf j.
  (** [p] accepts every such text, provided what follows is right. *)
  Definition takes {T} (F : list byte -> T -> Prop) (follow : list byte -> Prop) (p : u8_parser T) : Prop :=
    forall w v, F w v -> forall l rest, follow rest -> p (mkInput l (w ++ rest)) = Data (mkInput l rest) v.

  Definition starts (P : byte -> Prop) (rest : list byte) : Prop := exists c r, rest = c :: r /\ P c.

  Lemma reads_bounded : forall T (F : list byte -> T -> Prop) p, reads F p -> (forall w v, F w v -> w <> []) -> forall i j v, p i = Data j v -> length (buf j) < length (buf i).
  Proof.
    intros T F p Hp HF i j v H. destruct (Hp _ _ _ H) as [_ (w & Hw & ->)]. rewrite app_length. apply HF in Hw. destruct w; [contradiction|]. cbn [length]. lia.
  Qed.

  Lemma take_while1_takes : forall f P, (forall c, f c = true <-> P c) ->
    forall v, some P v -> forall l rest, starts (fun c => ~ P c) rest -> take_while1 verbose f (mkInput l (v ++ rest)) = Data (mkInput l rest) v.
  Proof.
    intros f P HP v [Hne Hv] l rest (c & r & -> & Hc). apply take_while1_spec. left. exists v, c, r. repeat split; auto.
    - eapply Forall_impl; [|exact Hv]. intros a. apply HP.
    - eapply false_of; eauto.
  Qed.
  Arguments take_while1_takes {f P} HP {v} Hv l rest Hr.
  Lemma take_while1_reads : forall f P, (forall c, f c = true <-> P c) -> forall l b j v, take_while1 verbose f (mkInput l b) = Data j v ->
    last j = l /\ some P v /\ b = v ++ buf j /\ (forall c r, buf j = c :: r -> ~ P c).
  Proof.
    intros f P HP l b j v H. apply take_while1_spec in H.
    destruct H as [(x & c & y & -> & Hne & Hx & Hc & H)|[(c & y & _ & _ & H)|[(Hne & Hb & -> & H)|(_ & _ & H)]]]; inversion H; subst; cbn [last buf].
    - repeat split; auto.
      + eapply Forall_impl; [|exact Hx]. intros a. apply HP.
      + intros c' r Hcr. inversion Hcr; subst. rewrite <- HP, Hc. discriminate.
    - repeat split; auto.
      + eapply Forall_impl; [|exact Hb]. intros a. apply HP.
      + rewrite app_nil_r. reflexivity.
      + intros c r Hcr. discriminate.
  Qed.

  Arguments take_while1_reads {f P} HP {l b j v} H.
  Lemma token_takes : forall t, takes (fun w v => w = [t] /\ v = t) (fun _ => True) (token verbose byte_eqb t).
  Proof.
    intros t w v [-> ->] l rest _. unfold token, first. cbn [app buf]. replace (byte_eqb t t) with true by (symmetry; apply byte_eqb_eq; reflexivity). reflexivity.
  Qed.
  Lemma token_reads : forall t, reads (fun w v => w = [t] /\ v = t) (token verbose byte_eqb t).
  Proof.
    intros t [l b] j v H. unfold token, first in H. cbn [buf] in H. destruct b as [|c b]; [discriminate|].
    destruct (byte_eqb t c) eqn:Hc; [|discriminate]. apply byte_eqb_eq in Hc. subst. inversion H; subst. cbn [last buf replace]. split; [reflexivity|]. exists [v]. auto.
  Qed.

  Lemma end_of_line_takes : forall w, line_end w -> forall l rest, exists v, end_of_line verbose (mkInput l (w ++ rest)) = Data (mkInput l rest) v.
  Proof. intros w [-> | ->] l rest; eexists; reflexivity. Qed.
  Lemma end_of_line_reads : reads (fun w _ => line_end w) (end_of_line verbose).
  Proof.
    intros i j v H. unfold end_of_line, or_ in H. destruct (stmt _ _ i) as [j1 v1|b e|n| |] eqn:H1; try discriminate.
    - inversion H; subst. apply stmt_data in H1. destruct H1 as (i1 & t1 & H1 & H2). apply stmt_data in H2. destruct H2 as (i2 & t2 & H2 & H3). inversion H3; subst.
      apply token_reads in H1. apply token_reads in H2. destruct H1 as (G1 & w1 & [-> _] & H1). destruct H2 as (G2 & w2 & [-> _] & H2). split; [congruence|]. exists [x0d; x0a]. split; [left; reflexivity|]. rewrite H1, H2. reflexivity.
    - apply token_reads in H. destruct H as (H & w & [-> _] & Hw). split; auto. exists [x0a]. split; [right; reflexivity|assumption].
    - destruct (last i) eqn:Hl; [|discriminate]. apply token_reads in H. destruct H as (H & w & [-> _] & Hw). split; [congruence|]. exists [x0a]. split; [right; reflexivity|assumption].
  Qed.
  Lemma line_end_starts : forall w rest, line_end w -> exists c r, w ++ rest = c :: r /\ (c = x0d \/ c = x0a).
  Proof. intros w rest [-> | ->]; cbn [app]; eauto. Qed.

  Lemma take_till_takes : forall v l c r, Forall line_byte v -> ~ line_byte c -> take_till is_end_of_line (mkInput l (v ++ c :: r)) = Data (mkInput l (c :: r)) v.
  Proof.
    intros v l c r Hv Hc. apply take_till_spec. left. exists v, c, r. repeat split; auto.
    - eapply Forall_impl; [|exact Hv]. intros a. apply line_spec.
    - apply not_false_iff_true. rewrite line_spec. assumption.
  Qed.
  Lemma take_till_reads : forall l b j v, take_till is_end_of_line (mkInput l b) = Data j v -> last j = l /\ Forall line_byte v /\ b = v ++ buf j.
  Proof.
    intros l b j v H. apply take_till_spec in H. destruct H as [(x & c & y & -> & Hx & Hc & H)|(_ & H)]; inversion H; subst. repeat split; auto.
    eapply Forall_impl; [|exact Hx]. intros a. apply line_spec.
  Qed.

  Definition not_blank (c : byte) : Prop := ~ blank c.
  Definition not_token_byte (c : byte) : Prop := ~ token_byte c.

  Lemma cr_lf_not : forall c, c = x0d \/ c = x0a -> ~ line_byte c /\ ~ blank c /\ ~ token_byte c /\ ~ version_byte c.
  Proof. intros c H. rewrite <- line_spec, <- blank_spec, <- token_spec, <- version_spec. destruct H as [-> | ->]; cbn; repeat split; discriminate. Qed.
  Lemma token_not : forall c, token_byte c -> ~ blank c /\ c <> ":"%byte /\ c <> " "%byte.
  Proof.
    intros c H. apply token_spec in H. rewrite <- blank_spec. repeat split.
    - intros Hb. unfold is_horizontal_space in Hb. apply orb_true_iff in Hb. destruct Hb as [Hb|Hb]; apply byte_eqb_eq in Hb; subst c; discriminate.
    - intros ->. discriminate.
    - intros ->. discriminate.
  Qed.

  (** * Lines *)
  Lemma line_takes : takes value_line (fun _ => True) (message_header_line verbose).
  Proof.
    intros w v (b & e & -> & Hb & Hv & Hs & He) l rest _. unfold message_header_line. rewrite <- !app_assoc.
    destruct (line_end_starts rest He) as (c & r & Hcr & Hc). destruct (cr_lf_not Hc) as (Hc1 & Hc2 & _).
    erewrite stmt_step; [|apply (take_while1_takes blank_spec Hb)].
    2:{ rewrite Hcr. destruct v as [|d v]; cbn [app]; [exists c, r; split; [reflexivity|assumption]|]. exists d, (v ++ c :: r). split; [reflexivity|]. eapply Hs. reflexivity. }
    rewrite Hcr. erewrite stmt_step; [|apply take_till_takes; assumption]. rewrite <- Hcr.
    destruct (end_of_line_takes He l rest) as (x & Hx). erewrite stmt_step; [|exact Hx]. reflexivity.
  Qed.
  Lemma line_reads : reads value_line (message_header_line verbose).
  Proof.
    intros [l b] j v H. unfold message_header_line in H. apply stmt_data in H. destruct H as ([l1 b1] & t1 & H1 & H). apply stmt_data in H. destruct H as ([l2 b2] & t2 & H2 & H).
    apply stmt_data in H. destruct H as (i3 & t3 & H3 & H). inversion H; subst.
    apply (take_while1_reads blank_spec) in H1. destruct H1 as (H1 & Hb & -> & Hn). apply take_till_reads in H2. destruct H2 as (H2 & Hv & H2').
    apply end_of_line_reads in H3. destruct H3 as (H3 & e & He & H3'). cbn [last buf] in *. subst. split; [congruence|].
    exists (t1 ++ v ++ e). split; [|rewrite <- !app_assoc; reflexivity]. exists t1, e. split; [reflexivity|]. split; [assumption|]. split; [assumption|]. split; [|assumption].
    intros c v' ->. eapply Hn. reflexivity.
  Qed.
  Lemma value_line_starts : forall w v, value_line w v -> exists c r, w = c :: r /\ blank c.
  Proof. intros w v (b & e & -> & [Hne Hb] & _). destruct b as [|c b]; [contradiction|]. inversion Hb; subst. cbn [app]. eauto. Qed.
  Lemma value_line_ne : forall w v, value_line w v -> w <> [].
  Proof. intros w v H. apply value_line_starts in H. destruct H as (c & r & -> & _). discriminate. Qed.

  Lemma line_answers : forall L, answers L (message_header_line verbose).
  Proof.
    intros L. unfold message_header_line. apply stmt_answers; [apply take_while1_answers|apply built_shrinks, b_take_while1|intros ?].
    apply stmt_answers; [apply take_till_answers|apply built_shrinks, b_take_till|intros ?].
    apply stmt_answers; [|apply built_shrinks, safe_built, end_of_line_safe|intros ?; apply ret_answers].
    apply or_answers; [|apply token_answers]. repeat (apply stmt_answers; [apply token_answers|apply built_shrinks, b_token|intros ?]). apply ret_answers.
  Qed.
  Lemma end_of_line_answers : forall L, answers L (end_of_line verbose).
  Proof. intros L. apply or_answers; [|apply token_answers]. repeat (apply stmt_answers; [apply token_answers|apply built_shrinks, b_token|intros ?]). apply ret_answers. Qed.

  Lemma pure_returns : forall T (p : u8_parser T), (forall L, answers L p) -> returns (pure p).
  Proof. intros T p H s i s' He. apply (proj2 (@H _ i (le_n _))). unfold pure in He. congruence. Qed.

  (** * Repetition of a parser that reads a format *)
  Section Repeat.
    Variable T : Type.
    Variable F : list byte -> T -> Prop.
    Variable p : u8_parser T.
    Hypothesis Hreads : reads F p.
    Hypothesis Hne : forall w v, F w v -> w <> [].
    Hypothesis Hans : forall L, answers L p.

    Lemma rep_consuming : consuming (pure p).
    Proof. intros s i j u s' H. inversion H. eapply reads_bounded; eauto. Qed.

    Lemma rep_reads : forall s i us s' j, iterates (pure p) s i us s' j -> last j = last i /\ exists ws, Forall2 F ws us /\ buf i = concat ws ++ buf j.
    Proof.
      intros s i us s' j H. induction H as [s i|s i u s1 i1 us s2 i2 H1 H IH]; [split; [reflexivity|]; exists []; split; [constructor|reflexivity]|].
      assert (H2 : p i = Data i1 u) by (unfold pure in H1; congruence). apply Hreads in H2. destruct H2 as (H2 & w & Hw & H3). destruct IH as (IH1 & ws & IH2 & IH3).
      split; [congruence|]. exists (w :: ws). split; [constructor; assumption|]. rewrite H3, IH3. cbn [concat]. rewrite app_assoc. reflexivity.
    Qed.

    Lemma rep_takes : forall follow, takes F follow p -> (forall w v rest, F w v -> follow (w ++ rest)) -> forall ws us, Forall2 F ws us -> forall l rest, follow rest ->
      iterates (pure p) tt (mkInput l (concat ws ++ rest)) us tt (mkInput l rest).
    Proof.
      intros follow Ht Hf ws us H. induction H as [|w u ws us H1 H IH]; intros l rest Hr; [apply iterates_nil|]. cbn [concat]. rewrite <- app_assoc. eapply iterates_cons; [|apply IH; assumption].
      unfold pure. f_equal. apply (Ht _ _ H1). destruct H as [|w1 u1 ws us H2 H]; [assumption|]. cbn [concat]. rewrite <- app_assoc. eapply Hf. eassumption.
    Qed.

    Lemma rep_many : forall r fuel ws us l rest follow, nonempty r -> takes F follow p -> (forall w v rest, F w v -> follow (w ++ rest)) -> Forall2 F ws us -> follow rest ->
      in_range r (length us) -> (exists b e, p (mkInput l rest) = Error b e) -> length (concat ws ++ rest) + 2 <= fuel ->
      bmany fuel (vec_collector T) r tt (pure p) (mkInput l (concat ws ++ rest)) = Data (mkInput l rest) us.
    Proof.
      intros r fuel ws us l rest follow Hn Ht Hf H2 Hr Hin (b & e & He) Hl. apply bmany_outcome; auto.
      - apply pure_returns. assumption.
      - apply rep_consuming.
      - eapply mo_data; [eapply rep_takes; eauto|assumption|]. right. left. exists b, e. assumption.
    Qed.

    Lemma rep_bmany_reads : forall r fuel i j us, nonempty r -> bmany fuel (vec_collector T) r tt (pure p) i = Data j us ->
      last j = last i /\ in_range r (length us) /\ exists ws, Forall2 F ws us /\ buf i = concat ws ++ buf j.
    Proof.
      intros r fuel i j us Hn H. apply bmany_sound in H; [|assumption|discriminate]. inversion H as [us' s j' Hi Hin _| | |]; subst. apply rep_reads in Hi. destruct Hi as [H1 H2]. auto.
    Qed.

    Lemma rep_answers : forall r L fuel, nonempty r -> L + 2 <= fuel -> answers L (bmany fuel (vec_collector T) r tt (pure p)).
    Proof.
      intros r L fuel Hn Hf i Hi. split; [|apply bmany_terminates; [apply pure_returns; assumption|apply rep_consuming|lia]].
      intros H. apply bmany_sound in H; [|assumption|discriminate]. inversion H as [| | |us s j Hit _ Hp]; subst. cbn in Hp. exact (proj1 (@Hans _ j (le_n _)) Hp).
    Qed.
  End Repeat.

  Lemma from1_ne : nonempty (RFrom 1).
  Proof. exists 1. cbn. lia. Qed.
  Lemma full_ne : nonempty RFull.
  Proof. exists 0. exact Logic.I. Qed.

  Lemma take_while1_fails : forall f (P : byte -> Prop) l c r, (forall c, f c = true <-> P c) -> ~ P c -> exists b e, take_while1 verbose f (mkInput l (c :: r)) = Error b e.
  Proof.
    intros f P l c r HP Hc. exists (c :: r), (if verbose then Unexpected else EPlain). apply take_while1_spec. right. left. exists c, r. repeat split. eapply false_of; eauto.
  Qed.
  Lemma stmt_fails : forall T U (p : u8_parser T) (k : T -> u8_parser U) i, (exists b e, p i = Error b e) -> exists b e, stmt p k i = Error b e.
  Proof. intros T U p k i (b & e & H). exists b, e. rewrite ?stmt_unfold. rewrite H. reflexivity. Qed.

  (** * Headers *)
  Lemma header_takes : forall fuel w h, header w h -> forall l rest, starts not_blank rest -> length (w ++ rest) + 2 <= fuel ->
    message_header verbose fuel (mkInput l (w ++ rest)) = Data (mkInput l rest) h.
  Proof.
    intros fuel w [n vs] (ls & -> & Hn & Hne & Hls) l rest Hr Hf. cbn [name value] in *. unfold message_header. rewrite <- app_assoc. cbn [app].
    erewrite stmt_step; [|apply (take_while1_takes token_spec Hn)].
    2:{ exists ":"%byte, (concat ls ++ rest). split; [reflexivity|]. rewrite <- token_spec. discriminate. }
    erewrite stmt_step; [|apply (@token_takes ":"%byte [":"%byte] ":"%byte (conj eq_refl eq_refl)); exact Logic.I].
    destruct Hr as (c & r & Hcr & Hc).
    erewrite stmt_step; [reflexivity|]. unfold many1. eapply rep_many with (F := value_line) (follow := fun _ => True); auto.
    - apply line_reads.
    - apply value_line_ne.
    - apply line_answers.
    - apply from1_ne.
    - apply line_takes.
    - cbn. destruct Hls; [contradiction|]. cbn [length]. lia.
    - rewrite Hcr. apply stmt_fails. eapply take_while1_fails; [apply blank_spec|assumption].
    - rewrite !app_length in *. cbn [length] in *. lia.
  Qed.
  Lemma header_reads : forall fuel, reads header (message_header verbose fuel).
  Proof.
    intros fuel [l b] j v H. unfold message_header in H. apply stmt_data in H. destruct H as ([l1 b1] & t1 & H1 & H). apply stmt_data in H. destruct H as (i2 & t2 & H2 & H).
    apply stmt_data in H. destruct H as (i3 & t3 & H3 & H). inversion H; subst.
    apply (take_while1_reads token_spec) in H1. destruct H1 as (H1 & Hn & -> & _). apply token_reads in H2. destruct H2 as (H2 & w2 & [-> _] & H2').
    unfold many1 in H3. eapply (rep_bmany_reads line_reads) in H3; [|apply from1_ne]. destruct H3 as (H3 & H4 & ls & H5 & H6). cbn [last buf] in *. split; [congruence|].
    exists (t1 ++ ":"%byte :: concat ls). split; [|rewrite H2', H6, <- app_assoc; reflexivity]. exists ls. repeat split; auto; try apply Hn.
    intros ->. inversion H5; subst. cbn in H4. lia.
  Qed.
  Lemma header_starts : forall w h rest, header w h -> starts not_blank (w ++ rest).
  Proof.
    intros w h rest (ls & -> & [Hne Hn] & _). destruct (name h) as [|c n]; [contradiction|]. inversion Hn; subst. cbn [app]. eexists c, _. split; [reflexivity|]. apply token_not. assumption.
  Qed.
  Lemma header_ne : forall w h, header w h -> w <> [].
  Proof. intros w h (ls & -> & _) H. destruct (name h); discriminate. Qed.
  Lemma header_answers : forall L fuel, L + 2 <= fuel -> answers L (message_header verbose fuel).
  Proof.
    intros L fuel Hf. unfold message_header. apply stmt_answers; [apply take_while1_answers|apply built_shrinks, b_take_while1|intros ?].
    apply stmt_answers; [apply token_answers|apply built_shrinks, b_token|intros ?].
    apply stmt_answers; [|apply built_shrinks, safe_built, safe_many1; [apply vec_exhausts|apply pure_carries|intros ?; apply message_header_line_safe]|intros ?; apply ret_answers].
    eapply rep_answers; [apply line_reads|apply value_line_ne|apply line_answers|apply from1_ne|assumption].
  Qed.

  (** The fuel of a header does not matter as long as it is enough. *)
  Lemma stmt_ext : forall T U (p p' : u8_parser T) (k k' : T -> u8_parser U) i, p i = p' i -> (forall t j, p i = Data j t -> k t j = k' t j) -> stmt p k i = stmt p' k' i.
  Proof. intros T U p p' k k' i H Hk. rewrite ?stmt_unfold. rewrite <- H. destruct (p i) as [j t|b e|n| |] eqn:Hp; auto. Qed.

  Definition header_any : u8_parser header_t := fun i => message_header verbose (length (buf i) + 2) i.
  Lemma header_fuel : forall fuel i, length (buf i) + 2 <= fuel -> message_header verbose fuel i = header_any i.
  Proof.
    intros fuel i Hf. unfold header_any, message_header. apply stmt_ext; [reflexivity|]. intros n j H1. apply stmt_ext; [reflexivity|]. intros t k H2. apply stmt_ext; [|reflexivity].
    assert (Hl : length (buf k) + 2 <= length (buf i) + 2).
    { apply (built_shrinks (b_take_while1 _ _)) in H1. apply (built_shrinks (b_token _ _ _)) in H2. lia. }
    unfold many1. apply bmany_mono; [|assumption].
    eapply (@rep_answers _ _ _ line_reads value_line_ne line_answers (RFrom 1) (length (buf k))); [apply from1_ne|lia|lia].
  Qed.
  Lemma header_any_reads : reads header header_any.
  Proof. intros i j v H. eapply header_reads. exact H. Qed.
  Lemma header_any_answers : forall L, answers L header_any.
  Proof. intros L i _. apply (@header_answers (length (buf i)) (length (buf i) + 2)); lia. Qed.
  Lemma headers_any : forall fuel i, length (buf i) + 2 <= fuel ->
    many fuel (vec_collector header_t) tt (pure (message_header verbose fuel)) i = many fuel (vec_collector header_t) tt (pure header_any) i.
  Proof.
    intros fuel i Hf. unfold many. apply bmany_cong with (L := length (buf i)); [| |lia].
    - intros s k Hk. unfold pure. f_equal. apply header_fuel. lia.
    - intros s k j u s' H. inversion H. apply Nat.lt_le_incl. eapply reads_bounded; [apply header_any_reads|apply header_ne|eassumption].
  Qed.

  (** * Requests *)
  Definition request_any (fuel : nat) : u8_parser (request_t * list header_t) :=
    stmt (request_line verbose) (fun r =>
    stmt (end_of_line verbose) (fun _ =>
    stmt (many fuel (vec_collector header_t) tt (pure header_any)) (fun h =>
    stmt (end_of_line verbose) (fun _ =>
    ret (r, h))))).

  Lemma request_to_any : forall fuel i, length (buf i) + 2 <= fuel -> request_fuel verbose fuel i = request_any fuel i.
  Proof.
    intros fuel i Hf. apply stmt_ext; [reflexivity|]. intros r j H1. apply stmt_ext; [reflexivity|]. intros t k H2. apply stmt_ext; [|reflexivity].
    apply headers_any. apply (built_shrinks (safe_built request_line_safe)) in H1. apply (built_shrinks (safe_built end_of_line_safe)) in H2. lia.
  Qed.
  Lemma request_any_fuel : forall fuel i, length (buf i) + 2 <= fuel -> request_any fuel i = request_any (length (buf i) + 2) i.
  Proof.
    intros fuel i Hf. apply stmt_ext; [reflexivity|]. intros r j H1. apply stmt_ext; [reflexivity|]. intros t k H2. apply stmt_ext; [|reflexivity].
    apply (built_shrinks (safe_built request_line_safe)) in H1. apply (built_shrinks (safe_built end_of_line_safe)) in H2.
    unfold many. apply bmany_mono; [|assumption]. eapply (@rep_answers _ _ _ header_any_reads header_ne header_any_answers RFull (length (buf k))); [apply full_ne|lia|lia].
  Qed.
  Lemma request_eq : forall fuel i, length (buf i) + 2 <= fuel -> request verbose i = request_fuel verbose fuel i.
  Proof. intros fuel i Hf. unfold request. rewrite !request_to_any by lia. symmetry. apply request_any_fuel. assumption. Qed.

  Lemma request_answers : forall L, answers L (request verbose).
  Proof.
    intros L i _. rewrite (@request_eq (length (buf i) + 2)), request_to_any by lia. revert i.
    assert (H : forall L', answers L' (request_any (L' + 2))).
    { intros L'. apply stmt_answers; [|apply built_shrinks, safe_built, request_line_safe|intros ?].
      { unfold request_line. repeat (apply stmt_answers; [first [apply take_while1_answers|idtac]|apply built_shrinks; first [apply b_take_while1|apply safe_built, http_version_safe]|intros ?]); [|apply ret_answers].
        apply stmt_answers; [apply string_answers|apply built_shrinks, b_string|intros ?; apply take_while1_answers]. }
      apply stmt_answers; [apply end_of_line_answers|apply built_shrinks, safe_built, end_of_line_safe|intros ?].
      apply stmt_answers; [| |intros ?; apply stmt_answers; [apply end_of_line_answers|apply built_shrinks, safe_built, end_of_line_safe|intros ?; apply ret_answers]].
      - eapply rep_answers; [apply header_any_reads|apply header_ne|apply header_any_answers|apply full_ne|lia].
      - intros i j v Hm. unfold many in Hm. eapply (rep_bmany_reads header_any_reads) in Hm; [|apply full_ne]. destruct Hm as (_ & _ & ws & _ & ->). rewrite app_length. lia. }
    intros i. apply H. lia.
  Qed.

  Lemma version_takes : forall v l rest, some version_byte v -> starts (fun c => ~ version_byte c) rest ->
    http_version verbose (mkInput l (["H"; "T"; "T"; "P"; "/"]%byte ++ v ++ rest)) = Data (mkInput l rest) v.
  Proof.
    intros v l rest Hv Hr. unfold http_version. erewrite stmt_step; [|apply string_match; repeat (apply Forall2_cons; [reflexivity|]); apply Forall2_nil].
    apply (take_while1_takes version_spec Hv). assumption.
  Qed.
  Lemma version_reads : forall i j v, http_version verbose i = Data j v ->
    last j = last i /\ some version_byte v /\ buf i = ["H"; "T"; "T"; "P"; "/"]%byte ++ v ++ buf j.
  Proof.
    intros [l b] j v H. unfold http_version in H. apply stmt_data in H. destruct H as ([l1 b1] & t1 & H1 & H).
    apply (take_while1_reads version_spec) in H. destruct H as (H & Hv & -> & _). cbn [last buf].
    assert (Hs : l1 = l /\ b = ["H"; "T"; "T"; "P"; "/"]%byte ++ v ++ buf j).
    { set (s := ["H"; "T"; "T"; "P"; "/"]%byte) in *. destruct (@string_total byte byte_eqb s b) as [G|[(x & y & -> & G)|(x & y & n & -> & G1 & G2)]].
      - rewrite (@string_short byte verbose byte_eqb s l b (length s - length b)) in H1 by lia. discriminate.
      - rewrite string_match in H1 by assumption. inversion H1; subst. split; [reflexivity|]. f_equal.
        assert (Hx : forall a b, same_items byte_eqb a b -> b = a).
        { intros a b Hab. induction Hab as [|c d a b Hc Hab IH]; [reflexivity|]. apply byte_eqb_eq in Hc. subst. reflexivity. }
        apply Hx. assumption.
      - rewrite (@string_mismatch_spec byte verbose byte_eqb s l x y n G1 G2) in H1. destruct verbose; discriminate. }
    destruct Hs as [-> ->]. auto.
  Qed.

  Lemma some_starts : forall (P Q : byte -> Prop) w rest, some P w -> (forall c, P c -> Q c) -> starts Q (w ++ rest).
  Proof. intros P Q w rest [Hne H] HPQ. destruct w as [|c w]; [contradiction|]. inversion H; subst. cbn [app]. exists c, (w ++ rest). auto. Qed.

  Lemma request_takes : forall w q, message w q -> forall l rest, request verbose (mkInput l (w ++ rest)) = Data (mkInput l rest) q.
  Proof.
    intros w q (s1 & s2 & e1 & hs & e2 & -> & Hm & Hs1 & Hu & Hs2 & Hv & He1 & Hh & He2) l rest. destruct q as [[m u v] hv]. cbn [fst snd method uri version] in *.
    rewrite (@request_eq (length (buf (mkInput l ((m ++ s1 ++ u ++ s2 ++ ["H"; "T"; "T"; "P"; "/"]%byte ++ v ++ e1 ++ concat hs ++ e2) ++ rest))) + 2)), request_to_any by lia.
    cbn [buf]. repeat rewrite <- app_assoc.
    set (fuel := length _ + 2). assert (Hfuel : length (concat hs ++ e2 ++ rest) + 2 <= fuel).
    { subst fuel. rewrite !app_length. lia. }
    clearbody fuel. unfold request_any.
    assert (Hnext : forall w r, line_end w -> starts (fun c => c = x0d \/ c = x0a) (w ++ r)) by (intros w r Hw; apply line_end_starts; assumption).
    erewrite stmt_step.
    2:{ unfold request_line. erewrite stmt_step; [|apply (take_while1_takes token_spec Hm); eapply some_starts; [exact Hs1|intros c -> Hc; apply token_not in Hc; tauto]].
        erewrite stmt_step; [|apply (take_while1_takes space_spec Hs1); eapply some_starts; [exact Hu|auto]].
        erewrite stmt_step; [|apply (take_while1_takes not_space_spec Hu); eapply some_starts; [exact Hs2|intros c -> Hc; apply Hc; reflexivity]].
        erewrite stmt_step; [|apply (take_while1_takes space_spec Hs2); eexists _, _; split; [reflexivity|discriminate]].
        erewrite stmt_step; [|apply version_takes; [assumption|]].
        2:{ destruct (Hnext e1 (concat hs ++ e2 ++ rest) He1) as (c & r & Hcr & Hc). exists c, r. split; [assumption|]. apply cr_lf_not in Hc. tauto. }
        reflexivity. }
    destruct (end_of_line_takes He1 l (concat hs ++ e2 ++ rest)) as (x1 & Hx1). erewrite stmt_step; [|exact Hx1].
    destruct (Hnext e2 rest He2) as (c & r & Hcr & Hc). apply cr_lf_not in Hc.
    erewrite stmt_step.
    2:{ unfold many. eapply rep_many with (F := header) (follow := starts not_blank).
        - apply header_any_reads.
        - apply header_ne.
        - apply header_any_answers.
        - apply full_ne.
        - intros w h Hw l' r' Hr'. apply header_takes; [assumption|assumption|]. cbn [buf]. lia.
        - intros w h r' Hw. eapply header_starts. eassumption.
        - exact Hh.
        - exists c, r. split; [assumption|]. apply Hc.
        - exact Logic.I.
        - rewrite Hcr. apply stmt_fails. eapply take_while1_fails; [apply token_spec|]. apply Hc.
        - assumption. }
    destruct (end_of_line_takes He2 l rest) as (x2 & Hx2). erewrite stmt_step; [|exact Hx2]. reflexivity.
  Qed.

  Lemma request_reads : reads message (request verbose).
  Proof.
    intros [l b] j v H. rewrite (@request_eq (length (buf (mkInput l b)) + 2)), request_to_any in H by lia. set (fuel := _ + 2) in *. clearbody fuel. unfold request_any in H.
    apply stmt_data in H. destruct H as (i1 & q & H1 & H). apply stmt_data in H. destruct H as (i2 & t2 & H2 & H). apply stmt_data in H. destruct H as (i3 & hv & H3 & H).
    apply stmt_data in H. destruct H as (i4 & t4 & H4 & H). inversion H; subst; clear H.
    apply end_of_line_reads in H2. destruct H2 as (H2 & e1 & He1 & H2'). apply end_of_line_reads in H4. destruct H4 as (H4 & e2 & He2 & H4').
    unfold many in H3. eapply (rep_bmany_reads header_any_reads) in H3; [|apply full_ne]. destruct H3 as (H3 & _ & hs & Hh & H3').
    unfold request_line in H1. apply stmt_data in H1. destruct H1 as ([l5 b5] & m & H5 & H1). apply stmt_data in H1. destruct H1 as ([l6 b6] & s1 & H6 & H1).
    apply stmt_data in H1. destruct H1 as ([l7 b7] & u & H7 & H1). apply stmt_data in H1. destruct H1 as ([l8 b8] & s2 & H8 & H1). apply stmt_data in H1. destruct H1 as ([l9 b9] & v & H9 & H1).
    inversion H1; subst; clear H1.
    apply (take_while1_reads token_spec) in H5. destruct H5 as (G5 & Hm & -> & _). apply (take_while1_reads space_spec) in H6. destruct H6 as (G6 & Hs1 & G6' & _).
    apply (take_while1_reads not_space_spec) in H7. destruct H7 as (G7 & Hu & G7' & _). apply (take_while1_reads space_spec) in H8. destruct H8 as (G8 & Hs2 & G8' & _).
    apply version_reads in H9. destruct H9 as (G9 & Hv & G9'). cbn [last buf] in *. split; [congruence|].
    exists (m ++ s1 ++ u ++ s2 ++ ["H"; "T"; "T"; "P"; "/"]%byte ++ v ++ e1 ++ concat hs ++ e2). split.
    - exists s1, s2, e1, hs, e2. cbn [fst snd method uri version]. repeat (split; [first [reflexivity|assumption]|]). assumption.
    - repeat rewrite <- app_assoc. rewrite G6', G7', G8', G9', H2', H3', H4'. reflexivity.
  Qed.

  Lemma request_well_behaved : well_behaved (request verbose).
  Proof. intros i. unfold request. apply (built_well_behaved (safe_built (request_fuel_safe (length (buf i) + 2)))). Qed.
  Lemma request_stable : stable (request verbose).
  Proof.
    intros b l c. set (fuel := length (b ++ c) + 2). rewrite (@request_eq fuel) by (cbn [buf]; unfold fuel; rewrite app_length; lia).
    rewrite (@request_eq fuel (mkInput l (b ++ c))) by (cbn [buf]; unfold fuel; lia). apply (safe_stable (request_fuel_safe fuel)).
  Qed.
  Lemma request_nil : request verbose (mkInput false []) = Incomplete 1.
  Proof. reflexivity. Qed.

  (** Inside a message, the parser asks for more, but for no more than the message has. *)
  Lemma request_prefix : forall a b q, message (a ++ b) q -> b <> [] -> exists n, request verbose (mkInput false a) = Incomplete n /\ 1 <= n <= length b.
  Proof.
    intros a b q Hm Hb. pose proof (@request_stable a false b) as Hs. pose proof (request_takes Hm false []) as Ht. rewrite app_nil_r in Ht. rewrite Ht in Hs.
    destruct (request verbose (mkInput false a)) as [j v|e x|n| |] eqn:Hr; cbn [upholds] in Hs.
    - inversion Hs as [[H1 H2]]. symmetry in H1. apply app_eq_nil in H1. destruct H1 as [_ H1]. contradiction.
    - discriminate.
    - exists n. split; [reflexivity|]. pose proof (request_well_behaved (mkInput false a)) as Hw. rewrite Hr in Hw. cbn [honest] in Hw. split; [assumption|].
      destruct (Nat.le_gt_cases n (length b)) as [H|H]; [assumption|]. destruct (Hs eq_refl H) as (m & Hx). discriminate.
    - discriminate.
    - exfalso. exact (proj2 (@request_answers (length a) (mkInput false a) (le_n _)) Hr).
  Qed.
  Lemma message_ne : forall w q, message w q -> w <> [].
  Proof. intros w q (s1 & s2 & e1 & hs & e2 & -> & [Hne _] & _) H. apply app_eq_nil in H. destruct H as [H _]. contradiction. Qed.
End Http.

Lemma render_message : forall q, proper q -> message (render q) q.
Proof.
  intros q (Hm & Hu & Hv & Hh). exists [" "]%byte, [" "]%byte, [x0d; x0a], (List.map render_header (snd q)), [x0d; x0a].
  assert (Hsp : some (fun c => c = " "%byte) [" "]%byte) by (split; [discriminate|]; repeat constructor).
  split; [unfold render; rewrite <- flat_map_concat_map; cbn [app]; reflexivity|]. do 5 (split; [assumption|]). split; [left; reflexivity|]. split; [|left; reflexivity].
  induction Hh as [|h hs Hp Hh IH]; cbn [List.map]; constructor; [|assumption]. destruct Hp as (Hn & Hne & Hl).
  exists (List.map render_line (value h)). split; [unfold render_header; rewrite <- flat_map_concat_map; reflexivity|]. split; [assumption|]. split; [destruct (value h); [contradiction|discriminate]|].
  clear Hne. induction Hl as [|v vs [Hv1 Hv2] Hl IHl]; cbn [List.map]; constructor; [|assumption].
  exists [" "]%byte, [x0d; x0a]. split; [reflexivity|]. split; [split; [discriminate|]; repeat constructor|]. split; [assumption|]. split; [assumption|]. left. reflexivity.
Qed.
