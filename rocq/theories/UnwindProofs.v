(** Proofs about caught panics. *)
From Coq Require Import List Bool Arith Lia.
From Verif Require Import Base Buffer Stream Word Unwind SpecBuffer SpecWord SpecUnwind BufferProofs WordProofs WordSafeProofs.
Import ListNotations.

Set Implicit Arguments.

(** * Without catching *)

Lemma out_at : forall S X A (st : S) (r : run X) (k : X -> call S A), outcome (at_state st r k) = run_bind r (fun x => outcome (k x)).
Proof. intros S X A st [x| | |] k; reflexivity. Qed.
Lemma out_part : forall S S' X A (put : S' -> S) (c : call S' X) (k : S' -> X -> call S A),
  outcome (on_part put c k) = run_bind (outcome c) (fun x => outcome (k (fst x) (snd x))).
Proof. intros S S' X A put [s x|s| |] k; reflexivity. Qed.
Lemma run_bind_ext : forall A B (r r' : run A) (f g : A -> run B), r = r' -> (forall a, f a = g a) -> run_bind r f = run_bind r' g.
Proof. intros A B r r' f g <- H. destruct r; cbn; auto. Qed.

(** A dictionary with and without the states left by panics. *)
Record same_ops {I B} (u : u_ops I B) (o : buffer_ops I B) : Prop := mkSameOps {
  so_deref : forall b, u_deref u b = op_deref o b;
  so_fill : forall St (ds : data_source St I) b s, outcome (u_fill u (calm ds) b s) = let! (b, s, r) := op_fill o ds b s in Done ((b, s), r);
  so_request : forall b n, outcome (u_request_space u b n) = let! b := op_request_space o b n in Done (b, tt);
  so_consume : forall b n, outcome (u_consume u b n) = let! b := op_consume o b n in Done (b, tt);
  so_len : forall b, u_len u b = op_len o b;
  so_capacity : forall b, u_capacity u b = op_capacity o b }.

Ltac bind_cases := repeat match goal with
  | |- context [run_bind ?r _] => match r with run_bind _ _ => fail 1 | _ => destruct r as [?x| | |]; cbn [run_bind]; try reflexivity end
  end.

Lemma same_fixed : forall I m, same_ops (u_fixed_ops I m) (w_fixed_ops I m).
Proof.
  intros I m. split; cbn [u_fixed_ops w_fixed_ops u_deref u_fill u_request_space u_consume u_len u_capacity op_deref op_fill op_request_space op_consume op_len op_capacity]; try reflexivity.
  - intros St ds b s. unfold u_fixed_fill, w_fixed_fill. rewrite out_at. destruct (assert _) as [u| | |]; cbn [run_bind]; try reflexivity. cbn [calm ps_read].
    destruct (ds_read ds s _) as [[s1 w] [n|e]]; [|reflexivity]. cbn [f_populated]. rewrite out_at. destruct (w_debug_assert_sum _ _ _ _) as [x| | |]; cbn [run_bind]; try reflexivity.
    rewrite out_at. destruct (w_add _ _ _) as [y| | |]; cbn [run_bind]; reflexivity.
  - intros b n. unfold u_fixed_request_space, w_fixed_request_space. rewrite out_at. destruct (assert _) as [u| | |]; cbn [run_bind]; try reflexivity.
    rewrite out_at. destruct (w_sub _ _ _) as [y| | |]; cbn [run_bind]; try reflexivity. destruct (y <? n); [|reflexivity].
    rewrite out_at. destruct (w_sub _ _ _) as [z| | |]; cbn [run_bind]; try reflexivity. rewrite out_at. destruct (copy_down _ _ _) as [z'| | |]; cbn [run_bind]; reflexivity.
  - intros b n. unfold u_fixed_consume, w_fixed_consume. rewrite out_at. destruct (w_debug_assert_sum _ _ _ _) as [x| | |]; cbn [run_bind]; try reflexivity.
    rewrite out_at. destruct (w_add _ _ _) as [y| | |]; cbn [run_bind]; reflexivity.
Qed.

Lemma same_growing : forall I m, same_ops (u_growing_ops I m) (w_growing_ops I m).
Proof.
  intros I m. split; cbn [u_growing_ops w_growing_ops u_deref u_fill u_request_space u_consume u_len u_capacity op_deref op_fill op_request_space op_consume op_len op_capacity]; try reflexivity.
  - intros St ds b s. unfold u_growing_fill, w_growing_fill. rewrite out_at. destruct (assert _) as [u| | |]; cbn [run_bind]; try reflexivity. cbn [calm ps_read].
    destruct (ds_read ds s _) as [[s1 w] [n|e]]; [|reflexivity]. cbn [g_populated]. rewrite out_at. destruct (w_debug_assert_sum _ _ _ _) as [x| | |]; cbn [run_bind]; try reflexivity.
    rewrite out_at. destruct (w_add _ _ _) as [y| | |]; cbn [run_bind]; reflexivity.
  - intros b n. unfold u_growing_request_space, w_growing_request_space. destruct (_ && _); [reflexivity|].
    rewrite out_at. destruct (w_growing_len _ _) as [l| | |]; cbn [run_bind]; try reflexivity. rewrite out_at. destruct (w_add _ _ _) as [t| | |]; cbn [run_bind]; try reflexivity.
    rewrite out_at. match goal with |- run_bind ?r _ = _ => destruct r as [b1| | |] end; cbn [run_bind]; try reflexivity.
    rewrite out_at. destruct (w_sub _ _ _) as [y| | |]; cbn [run_bind]; try reflexivity. destruct (y <? n); [|reflexivity].
    rewrite out_at. destruct (w_sub _ _ _) as [z| | |]; cbn [run_bind]; try reflexivity. rewrite out_at. destruct (copy_down _ _ _) as [z'| | |]; cbn [run_bind]; reflexivity.
  - intros b n. unfold u_growing_consume, w_growing_consume. rewrite out_at. destruct (w_debug_assert_sum _ _ _ _) as [x| | |]; cbn [run_bind]; try reflexivity.
    rewrite out_at. destruct (w_add _ _ _) as [y| | |]; cbn [run_bind]; reflexivity.
Qed.

Section Same.
  Context {St I B : Type}.
  Variables (m : machine) (ds : data_source St I) (u : u_ops I B) (o : buffer_ops I B).
  Hypothesis H : same_ops u o.

  Lemma same_loop : forall fuel q n b s,
    outcome (u_fill_loop m (calm ds) u fuel q n b s) = let! (b, s, r) := w_fill_loop m ds o fuel q n b s in Done ((b, s), r).
  Proof.
    induction fuel as [|fuel IH]; intros q n b s; [reflexivity|]. cbn [u_fill_loop w_fill_loop]. rewrite out_at, (so_len H). destruct (op_len o b) as [l| | |]; cbn [run_bind]; try reflexivity.
    destruct (l <? q); [|reflexivity]. rewrite out_part, (so_fill H). destruct (op_fill o ds b s) as [[[b1 s1] r]| | |]; cbn [run_bind fst snd]; try reflexivity.
    destruct r as [[|k]|e]; try reflexivity. rewrite out_at. destruct (w_add m n (S k)) as [n'| | |]; cbn [run_bind]; try reflexivity. apply IH.
  Qed.

  Lemma same_requested : forall q st, outcome (u_fill_requested m (calm ds) u q st) = w_fill_requested m ds o q st.
  Proof.
    intros q st. unfold u_fill_requested, w_fill_requested. rewrite out_at, (so_len H). destruct (op_len o _) as [l| | |]; cbn [run_bind]; try reflexivity.
    destruct (l <? q); [|reflexivity]. rewrite out_at. destruct (w_sub m q l) as [d| | |]; cbn [run_bind]; try reflexivity.
    rewrite out_part, (so_request H). destruct (op_request_space o _ d) as [b| | |]; cbn [run_bind fst snd]; try reflexivity.
    rewrite out_part, same_loop, (so_capacity H). destruct (w_fill_loop m ds o _ q 0 b _) as [[[b1 s1] r]| | |]; reflexivity.
  Qed.

  Lemma same_fill : forall st, outcome (u_src_fill m (calm ds) u st) = w_src_fill m ds o st.
  Proof.
    intros st. unfold u_src_fill, w_src_fill. rewrite out_part, same_requested. destruct (w_fill_requested _ _ _ _ _) as [[st1 [n|e]]| | |]; cbn [run_bind fst snd]; try reflexivity.
    rewrite out_at. cbn [src_buffer]. rewrite (so_len H). destruct (op_len o _) as [l| | |]; reflexivity.
  Qed.

  Lemma same_read : forall n st, outcome (u_src_read m (calm ds) u n st) = w_src_read m ds o n st.
  Proof.
    intros n st. unfold u_src_read, w_src_read, src_len. rewrite out_at, (so_len H). destruct (op_len o _) as [l| | |]; cbn [run_bind]; try reflexivity. rewrite out_part.
    replace (outcome (if l <? n then u_fill_requested m (calm ds) u n st else Returns st (IoOk 0))) with (if l <? n then w_fill_requested m ds o n st else Done (st, IoOk 0))
      by (destruct (l <? n); [symmetry; apply same_requested|reflexivity]).
    match goal with |- run_bind ?r _ = _ => destruct r as [[st1 [k|e]]| | |] end; cbn [run_bind fst snd]; try reflexivity.
    rewrite out_at, (so_deref H). destruct (op_deref o _) as [d| | |]; cbn [run_bind]; try reflexivity. rewrite out_part, (so_consume H). destruct (op_consume o _ _) as [b| | |]; reflexivity.
  Qed.

  Lemma same_fill_buf : forall st, outcome (u_src_fill_buf m (calm ds) u st) = w_src_fill_buf m ds o st.
  Proof.
    intros st. unfold u_src_fill_buf, w_src_fill_buf, src_capacity, src_view. rewrite out_part, same_requested, (so_capacity H).
    destruct (w_fill_requested _ _ _ _ _) as [[st1 [n|e]]| | |]; cbn [run_bind fst snd]; try reflexivity. rewrite out_at, (so_deref H). destruct (op_deref o _) as [d| | |]; reflexivity.
  Qed.

  Lemma same_consume : forall n (st : src St B), outcome (u_src_consume u n st) = let! st := src_consume o n st in Done (st, tt).
  Proof. intros n st. unfold u_src_consume, src_consume. rewrite out_part, (so_consume H). destruct (op_consume o _ _) as [b| | |]; reflexivity. Qed.

  Lemma same_is_empty : forall st : src St B, u_src_is_empty u st = src_is_empty o st.
  Proof. intros st. unfold u_src_is_empty, src_is_empty, src_len. rewrite (so_len H). reflexivity. Qed.

  Lemma same_parse : forall T E (p : parser I T E) st, outcome (u_src_parse m (calm ds) u p st) = w_src_parse m ds o p st.
  Proof.
    intros T E p st. unfold u_src_parse, w_src_parse. rewrite out_part.
    replace (outcome (if src_incomplete st && src_auto st then u_src_fill m (calm ds) u st else Returns st (IoOk 0)))
      with (if src_incomplete st && src_auto st then w_src_fill m ds o st else Done (st, IoOk 0)) by (destruct (_ && _); [symmetry; apply same_fill|reflexivity]).
    match goal with |- run_bind ?r _ = _ => destruct r as [[st1 [k|e]]| | |] end; cbn [run_bind fst snd]; try reflexivity.
    rewrite out_at, same_is_empty. destruct (src_is_empty o st1) as [[|]| | |]; cbn [run_bind]; try reflexivity. rewrite out_at, (so_deref H).
    destruct (op_deref o _) as [d| | |]; cbn [run_bind]; try reflexivity. destruct (p (mkInput (src_eoi st1) d)) as [j v|b0 er|n| |]; try reflexivity;
      rewrite out_at, (so_len H); (destruct (op_len o _) as [l| | |]; cbn [run_bind]; try reflexivity); rewrite out_at.
    - destruct (w_sub m _ _) as [n| | |]; cbn [run_bind]; try reflexivity. rewrite out_part, (so_consume H). destruct (op_consume o _ _) as [b| | |]; reflexivity.
    - destruct (w_sub m _ _) as [n| | |]; cbn [run_bind]; try reflexivity. rewrite out_part, (so_consume H). destruct (op_consume o _ _) as [b| | |]; reflexivity.
    - destruct (w_add m _ _) as [q| | |]; cbn [run_bind]; try reflexivity. destruct (src_eoi st1); reflexivity.
  Qed.
End Same.

(** * Safety *)

(** A call that is defined; what it leaves is [Q], given what it returned ([None]: it panicked). *)
Definition okc {S A} (Q : S -> option A -> Prop) (c : call S A) : Prop :=
  match c with
  | Returns s a => Q s (Some a)
  | Unwinds s => Q s None
  | Breaks => False
  | Loops => False
  end.

Lemma okc_at : forall S X A (R : X -> Prop) (Q : S -> option A -> Prop) st r k,
  fine R r -> Q st None -> (forall x, r = Done x -> R x -> okc Q (k x)) -> okc Q (at_state st r k).
Proof. intros S X A R Q st [x| | |] k Hf Hq Hk; cbn [at_state fine okc] in *; auto. Qed.
Lemma okc_part : forall S S' X A (R : S' -> option X -> Prop) (Q : S -> option A -> Prop) put c k,
  okc R c -> (forall s, R s None -> Q (put s) None) -> (forall s x, R s (Some x) -> okc Q (k s x)) -> okc Q (on_part put c k).
Proof. intros S S' X A R Q put [s x|s| |] k Hc Hp Hk; cbn [on_part okc] in *; auto. Qed.
Lemma okc_survives : forall S A (Q : S -> option A -> Prop) c, okc Q c -> survives c.
Proof. intros S A Q [s a|s| |] H; cbn [okc] in H; try contradiction; split; discriminate. Qed.
Lemma okc_leaves : forall S A (Q : S -> Prop) (c : call S A) st, okc (fun s _ => Q s) c -> leaves c st -> Q st.
Proof. intros S A Q c st H [->|[a ->]]; exact H. Qed.

Section Safe.
  Variable m : machine.
  Hypothesis P : platform m.

  Record u_safe {I B} (o : u_ops I B) (inv : B -> Prop) (room : B -> nat) : Prop := mkUSafe {
    us_deref : forall b, inv b -> fine (fun _ => True) (u_deref o b);
    us_len : forall b, inv b -> fine (fun _ => True) (u_len o b);
    us_fill : forall St (ds : panicky_source St I) b s, p_obeys ds -> inv b ->
      okc (fun x r => inv (fst x) /\ match r with Some (IoOk n) => room (fst x) + n = room b | _ => True end) (u_fill o ds b s);
    us_request : forall b l q, inv b -> u_len o b = Done l -> l < q -> q < w_size m -> okc (fun b _ => inv b) (u_request_space o b (q - l));
    us_consume : forall b n, inv b -> okc (fun b _ => inv b) (u_consume o b n);
    us_room : forall b, inv b -> room b <= u_capacity o b;
    us_capacity : forall b, inv b -> u_capacity o b < w_size m }.

  Lemma u_fixed_request_safe : forall I (b : fixed I) n, fixed_safe_inv m b -> okc (fun b _ => fixed_safe_inv m b) (u_fixed_request_space m b n).
  Proof.
    intros I b n Hb. pose proof Hb as (Hl & Hp & Hw). unfold u_fixed_request_space. eapply okc_at; [apply fine_assert|exact Hb|]. intros u _ Hc; cbv beta in Hc. apply Nat.leb_le in Hc.
    rewrite sub_fits by assumption. cbn [at_state]. destruct (_ <? _); [|exact Hb]. rewrite sub_fits by assumption. cbn [at_state].
    destruct (copy_in (f_mem b) Hc Hp) as [mem E]. rewrite E. cbn [at_state okc]. unfold fixed_safe_inv. cbn [f_mem f_populated]. rewrite (copy_length _ _ _ E). repeat split; try lia.
    eapply written_move; eassumption.
  Qed.

  Lemma u_fixed_safe : forall I, u_safe (u_fixed_ops I m) (fixed_safe_inv m) (fun b => length (f_mem b) - f_populated b).
  Proof.
    pose proof P as P'. unfold platform in P'.
    intros I. pose proof (fixed_safe P I) as F. split; cbn [u_fixed_ops u_deref u_fill u_request_space u_consume u_len u_capacity].
    - intros b Hb. apply (os_deref F b Hb).
    - intros b Hb. apply (os_len F b Hb).
    - intros St ds b s Ho (Hl & Hp & Hw). unfold u_fixed_fill. eapply okc_at; [apply fine_assert|repeat split; assumption|]. intros u _ _.
      destruct (ps_read ds s _) as [[s1 w] r] eqn:E.
      assert (Hb1 : fixed_safe_inv m (mkFixed (firstn (f_populated b) (f_mem b) ++ overwrite w (skipn (f_populated b) (f_mem b))) (f_populated b) (f_used b))).
      { unfold fixed_safe_inv. cbn [f_mem f_populated]. rewrite mem_length. repeat split; auto. apply written_err; assumption. }
      destruct r as [[n|e]|]; cbn [f_populated f_used okc fst]; [|split; [exact Hb1|exact Logic.I]|split; [exact Hb1|exact Logic.I]].
      destruct (Ho _ _ _ _ _ E) as [Hn Hc]. eapply okc_at; [apply sum_fine; exact P|split; [exact Hb1|exact Logic.I]|]. intros _ _ _.
      eapply okc_at; [apply add_fine; exact P|split; [exact Hb1|exact Logic.I]|]. intros pop _ [_ Hpop].
      rewrite Hpop by lia. unfold fixed_safe_inv. cbn [okc fst f_mem f_populated]. rewrite mem_length. repeat split; try lia. apply written_fill; auto.
    - intros b l q Hb _ _ _. apply u_fixed_request_safe, Hb.
    - intros b n Hb. unfold u_fixed_consume. eapply okc_at; [apply sum_fine; exact P|exact Hb|]. intros _ _ _. eapply okc_at; [apply add_fine; exact P|exact Hb|]. intros used _ _. exact Hb.
    - intros b Hb. apply (os_room F b Hb).
    - intros b Hb. apply (os_capacity F b Hb).
  Qed.

  Lemma okc_outcome : forall S A (Q : S -> option A -> Prop) c, fine (fun x => Q (fst x) (Some (snd x))) (outcome c) -> (forall s, c = Unwinds s -> Q s None) -> okc Q c.
  Proof. intros S A Q [s a|s| |] H Hu; cbn [outcome fine okc fst snd] in *; auto. Qed.

  (** Where [request_space] panics, it has not changed anything. *)
  Lemma u_fixed_request_unwinds : forall I (b b' : fixed I) n, u_fixed_request_space m b n = Unwinds b' -> b' = b.
  Proof.
    intros I b b' n H. unfold u_fixed_request_space in H. destruct (assert _) as [x| | |]; cbn [at_state] in H; try discriminate; [|congruence].
    destruct (w_sub _ _ _) as [y| | |]; cbn [at_state] in H; try discriminate; [|congruence]. destruct (y <? n); [|discriminate].
    destruct (w_sub _ _ _) as [z| | |]; cbn [at_state] in H; try discriminate; [|congruence]. destruct (copy_down _ _ _) as [z'| | |]; cbn [at_state] in H; try discriminate. congruence.
  Qed.

  Lemma u_growing_request_unwinds : forall I (b b' : growing I) n, growing_safe_inv m b -> u_growing_request_space m b n = Unwinds b' -> b' = b.
  Proof.
    intros I b b' n (Hl & Hc & Hp & Hu & Hw) H. unfold u_growing_request_space in H. destruct (_ && _); [discriminate|].
    destruct (w_growing_len m b) as [l| | |] eqn:El; cbn [at_state] in H; try discriminate; [|congruence].
    destruct (w_add m n l) as [t| | |]; cbn [at_state] in H; try discriminate; [|congruence].
    destruct (if g_cap b <? t then _ else _) as [b1| | |] eqn:E1 in H; cbn [at_state] in H; try discriminate; [|congruence].
    assert (G : g_populated b1 = g_populated b /\ g_used b1 = g_used b /\ length (g_mem b) <= length (g_mem b1)).
    { destruct (g_cap b <? t); [|inversion E1; subst; auto]. unfold w_growing_reserve, growing_reserve in E1. destruct (n <=? _).
      - cbn [run_bind] in E1. inversion E1; subst. cbn [growing_set_len g_populated g_used g_mem]. rewrite app_length. repeat split; lia.
      - destruct (assert _); cbn [run_bind] in E1; try discriminate. inversion E1; subst. cbn [growing_set_len g_populated g_used g_mem]. rewrite app_length. repeat split; lia. }
    destruct G as (G1 & G2 & G3). rewrite sub_fits in H by lia. cbn [at_state] in H. destruct (_ <? n); [|discriminate].
    unfold w_growing_len in El. rewrite G1, G2, El in H. cbn [at_state] in H. unfold copy_down in H. destruct (_ <=? _); cbn [at_state] in H; discriminate.
  Qed.

  Lemma u_growing_request_safe : forall I (b : growing I) l q, growing_safe_inv m b -> w_growing_len m b = Done l -> l < q -> q < w_size m ->
    okc (fun b _ => growing_safe_inv m b) (u_growing_request_space m b (q - l)).
  Proof.
    intros I b l q Hb Hl Hlt Hq. apply okc_outcome.
    - pose proof (so_request (same_growing I m) b (q - l)) as Hs. cbn [u_growing_ops u_request_space] in Hs. rewrite Hs. eapply fine_bind; [apply (os_request (growing_safe P I) b Hb Hl Hlt Hq)|].
      intros b' _ Hb'. exact Hb'.
    - intros b' E. apply u_growing_request_unwinds in E; [|exact Hb]. subst. exact Hb.
  Qed.

  Lemma u_growing_safe : forall I, u_safe (u_growing_ops I m) (growing_safe_inv m) (fun b => length (g_mem b) - g_populated b).
  Proof.
    pose proof P as P'. unfold platform in P'.
    intros I. pose proof (growing_safe P I) as F. split; cbn [u_growing_ops u_deref u_fill u_request_space u_consume u_len u_capacity].
    - intros b Hb. apply (os_deref F b Hb).
    - intros b Hb. apply (os_len F b Hb).
    - intros St ds b s Ho (Hl & Hcap & Hp & Hu & Hw). unfold u_growing_fill. eapply okc_at; [apply fine_assert|repeat split; assumption|]. intros u _ _.
      destruct (ps_read ds s _) as [[s1 w] r] eqn:E.
      assert (Hb1 : growing_safe_inv m (mkGrowing (firstn (g_populated b) (g_mem b) ++ overwrite w (skipn (g_populated b) (g_mem b))) (g_cap b) (g_populated b) (g_limit b) (g_used b) (g_alloc b) (g_count b))).
      { unfold growing_safe_inv. cbn [g_mem g_populated g_cap g_used]. rewrite mem_length. repeat split; auto. apply written_err; assumption. }
      destruct r as [[n|e]|]; cbn [g_populated g_used okc fst]; [|split; [exact Hb1|exact Logic.I]|split; [exact Hb1|exact Logic.I]].
      destruct (Ho _ _ _ _ _ E) as [Hn Hc]. eapply okc_at; [apply sum_fine; exact P|split; [exact Hb1|exact Logic.I]|]. intros _ _ _.
      eapply okc_at; [apply add_fine; exact P|split; [exact Hb1|exact Logic.I]|]. intros pop _ [_ Hpop].
      rewrite Hpop by lia. unfold growing_safe_inv. cbn [okc fst g_mem g_populated g_cap g_used]. rewrite mem_length. repeat split; try lia. apply written_fill; auto.
    - intros b l q Hb Hl Hlt Hq. apply u_growing_request_safe; assumption.
    - intros b n Hb. unfold u_growing_consume. eapply okc_at; [apply sum_fine; exact P|exact Hb|]. intros _ _ _. eapply okc_at; [apply add_fine; exact P|exact Hb|]. intros used _ [Hlt _].
      destruct Hb as (Hl & Hcap & Hp & Hu & Hw). repeat split; assumption.
    - intros b Hb. apply (os_room F b Hb).
    - intros b Hb. apply (os_capacity F b Hb).
  Qed.

  Section SourceSafe.
    Context {St I B : Type}.
    Variable ds : panicky_source St I.
    Hypothesis O : p_obeys ds.
    Variables (o : u_ops I B) (inv : B -> Prop) (room : B -> nat).
    Hypothesis F : u_safe o inv room.

    Definition u_safe_st (st : src St B) : Prop := inv (src_buffer st) /\ src_request st < w_size m.
    Notation keeps c := (okc (fun st _ => u_safe_st st) c).

    Lemma u_loop_safe : forall fuel q n b s, inv b -> room b < fuel -> okc (fun x _ => inv (fst x)) (u_fill_loop m ds o fuel q n b s).
    Proof.
      induction fuel as [|fuel IH]; intros q n b s Hb Hf; [lia|]. cbn [u_fill_loop]. eapply okc_at; [apply (us_len F), Hb|exact Hb|]. intros l _ _.
      destruct (l <? q); [|exact Hb]. eapply okc_part; [apply (us_fill F b s O Hb)|intros x [Hx _]; exact Hx|]. intros [b1 s1] r [Hb1 Hr]. cbn [fst] in *.
      destruct r as [[|k]|e]; try exact Hb1. eapply okc_at; [apply add_fine; exact P|exact Hb1|]. intros n' _ _. apply IH; [assumption|lia].
    Qed.

    Lemma u_requested_safe : forall q st, q < w_size m -> u_safe_st st -> keeps (u_fill_requested m ds o q st).
    Proof.
      intros q st Hq Hst. pose proof Hst as [Hb Hr]. unfold u_fill_requested. eapply okc_at; [apply (us_len F), Hb|exact Hst|]. intros l El _. destruct (Nat.ltb_spec l q) as [Hlt|Hge]; [|exact Hst].
      rewrite sub_fits by lia. cbn [at_state]. eapply okc_part; [apply (us_request F); eassumption|intros b Hb1; split; assumption|]. intros b u Hb1. cbv beta in Hb1.
      eapply okc_part; [apply u_loop_safe; [exact Hb1|pose proof (us_room F _ Hb1); lia]|intros x Hx; split; assumption|]. intros [b2 s2] x Hb2. split; assumption.
    Qed.

    Lemma u_fill_safe : forall st, u_safe_st st -> keeps (u_src_fill m ds o st).
    Proof.
      intros st Hst. unfold u_src_fill. eapply okc_part; [apply u_requested_safe; [destruct Hst; unfold platform in P; lia|assumption]|auto|]. intros st1 [n|e] H1; [|exact H1].
      eapply okc_at; [apply (us_len F), H1|exact H1|]. intros l _ _. exact H1.
    Qed.

    Lemma u_read_safe : forall n st, n < w_size m -> u_safe_st st -> keeps (u_src_read m ds o n st).
    Proof.
      intros n st Hn Hst. unfold u_src_read. eapply okc_at; [apply (us_len F), Hst|exact Hst|]. intros l _ _.
      eapply okc_part with (R := fun st _ => u_safe_st st); [destruct (l <? n); [apply u_requested_safe; assumption|exact Hst]|auto|]. intros st1 [k|e] H1; [|exact H1].
      eapply okc_at; [apply (us_deref F), H1|exact H1|]. intros dt _ _. eapply okc_part; [apply (us_consume F), H1|intros b Hb; split; [exact Hb|apply H1]|]. intros b u Hb. split; [exact Hb|apply H1].
    Qed.

    Lemma u_fill_buf_safe : forall st, u_safe_st st -> keeps (u_src_fill_buf m ds o st).
    Proof.
      intros st Hst. unfold u_src_fill_buf. eapply okc_part; [apply u_requested_safe; [apply (us_capacity F), Hst|assumption]|auto|]. intros st1 [k|e] H1; [|exact H1].
      eapply okc_at; [apply (us_deref F), H1|exact H1|]. intros dt _ _. exact H1.
    Qed.

    Lemma u_consume_safe : forall n st, u_safe_st st -> keeps (u_src_consume o n st).
    Proof.
      intros n st Hst. unfold u_src_consume. eapply okc_part; [apply (us_consume F), Hst|intros b Hb; split; [exact Hb|apply Hst]|]. intros b u Hb. split; [exact Hb|apply Hst].
    Qed.

    Lemma u_is_empty_safe : forall st : src St B, u_safe_st st -> fine (fun _ => True) (u_src_is_empty o st).
    Proof.
      intros st Hst. unfold u_src_is_empty. destruct (src_eoi st); [|exact Logic.I]. eapply fine_bind; [apply (us_len F), Hst|]. intros; exact Logic.I.
    Qed.

    (** Like [okc], when the parser may run out of its own loop budget. *)
    Definition okc_or {S A} (Q : S -> Prop) (c : Prop) (r : call S A) : Prop :=
      match r with Returns s _ => Q s | Unwinds s => Q s | Breaks => False | Loops => c end.
    Lemma oko_at : forall S X A (R : X -> Prop) (Q : S -> Prop) c st r (k : X -> call S A),
      fine R r -> Q st -> (forall x, r = Done x -> R x -> okc_or Q c (k x)) -> okc_or Q c (at_state st r k).
    Proof. intros S X A R Q c st [x| | |] k Hf Hq Hk; cbn [at_state fine okc_or] in *; auto; contradiction. Qed.
    Lemma oko_part : forall S S' X A (R : S' -> option X -> Prop) (Q : S -> Prop) c0 put c (k : S' -> X -> call S A),
      okc R c -> (forall s, R s None -> Q (put s)) -> (forall s x, R s (Some x) -> okc_or Q c0 (k s x)) -> okc_or Q c0 (on_part put c k).
    Proof. intros S S' X A R Q c0 put [s x|s| |] k Hc Hp Hk; cbn [on_part okc okc_or] in *; auto; contradiction. Qed.

    Lemma u_parse_safe : forall T E (p : parser I T E) st, u_safe_st st -> okc_or u_safe_st (exists i, p i = NoFuel) (u_src_parse m ds o p st).
    Proof.
      intros T E p st Hst. unfold u_src_parse. eapply oko_part with (R := fun st _ => u_safe_st st); [destruct (_ && _); [apply u_fill_safe; assumption|exact Hst]|auto|].
      intros st1 [k|e] H1; [|exact H1]. eapply oko_at; [apply u_is_empty_safe, H1|exact H1|]. intros e _ _. destruct e; [exact H1|].
      eapply oko_at; [apply (us_deref F), H1|exact H1|]. intros dt _ _. destruct (p (mkInput (src_eoi st1) dt)) as [j v|b0 er|n| |] eqn:Ep; try exact H1; [| | |exists (mkInput (src_eoi st1) dt); exact Ep];
        (eapply oko_at; [apply (us_len F), H1|exact H1|]; intros l _ _).
      - eapply oko_at; [apply sub_fine; exact P|exact H1|]. intros n _ _. eapply oko_part; [apply (us_consume F), H1|intros b Hb; split; [exact Hb|apply H1]|]. intros b u Hb. split; [exact Hb|apply H1].
      - eapply oko_at; [apply sub_fine; exact P|exact H1|]. intros n _ _. eapply oko_part; [apply (us_consume F), H1|intros b Hb; split; [exact Hb|apply H1]|]. intros b u Hb. split; [exact Hb|apply H1].
      - eapply oko_at; [apply add_fine; exact P|exact H1|]. intros q _ [Hq _]. destruct (src_eoi st1); (split; [apply H1|exact Hq]).
    Qed.

    Lemma oko_leaves : forall S A (Q : S -> Prop) c0 (c : call S A) st, okc_or Q c0 c -> leaves c st -> Q st.
    Proof. intros S A Q c0 c st H [->|[a ->]]; exact H. Qed.

    Lemma u_history_safe : forall s0 b0 st, inv b0 -> u_history m ds o s0 b0 st -> u_safe_st st.
    Proof.
      intros s0 b0 st Hb0 H. induction H as [|st T E p st' Hh IH H|st st' Hh IH H|st n st' Hh IH Hn H|st st' Hh IH H|st n st' Hh IH Hn H|st Hh IH|st v Hh IH].
      - split; [exact Hb0|]. cbn. unfold platform in P. lia.
      - exact (oko_leaves _ _ (u_parse_safe p IH) H).
      - exact (okc_leaves _ (u_fill_safe IH) H).
      - exact (okc_leaves _ (u_read_safe Hn IH) H).
      - exact (okc_leaves _ (u_fill_buf_safe IH) H).
      - exact (okc_leaves _ (u_consume_safe n IH) H).
      - exact IH.
      - exact IH.
    Qed.

    Lemma u_history_survives : forall s0 b0 st, inv b0 -> u_history m ds o s0 b0 st -> all_survive m ds o st.
    Proof.
      intros s0 b0 st Hb0 H. pose proof (u_history_safe Hb0 H) as Hs. split.
      - intros T E p G. pose proof (u_parse_safe p Hs) as K. rewrite G in K. exact K.
      - intros T E p Hp G. pose proof (u_parse_safe p Hs) as K. rewrite G in K. destruct K as [i Hi]. exact (Hp i Hi).
      - eapply okc_survives, u_fill_safe, Hs.
      - intros n Hn. eapply okc_survives, u_read_safe; assumption.
      - eapply okc_survives, u_fill_buf_safe, Hs.
      - intros n _. eapply okc_survives, u_consume_safe, Hs.
      - eapply fine_defined, (us_len F), Hs.
      - eapply fine_defined, u_is_empty_safe, Hs.
      - eapply fine_defined, (us_deref F), Hs.
    Qed.
  End SourceSafe.

  (** * Buffers used directly *)

  Lemma written_some : forall I (l : list I), written (List.map Some l).
  Proof. intros I l. unfold written. induction l; constructor; auto; discriminate. Qed.

  Lemma write_written : forall I (mem : memory I) l pop used, used <= pop -> pop <= length mem -> length l = pop - used -> written (firstn pop mem) ->
    length (firstn used mem ++ List.map Some l ++ skipn pop mem) = length mem /\ written (firstn pop (firstn used mem ++ List.map Some l ++ skipn pop mem)).
  Proof.
    intros I mem l pop used Hu Hp Hl Hw. split; [rewrite !app_length, firstn_length, map_length, skipn_length; lia|].
    rewrite app_assoc, firstn_app, app_length, firstn_length, map_length. replace (pop - (Nat.min used (length mem) + length l)) with 0 by lia. rewrite firstn_O, app_nil_r.
    apply written_firstn. unfold written. apply Forall_app. split; [|apply written_some].
    replace (firstn used mem) with (firstn used (firstn pop mem)) by (rewrite firstn_firstn; f_equal; lia). apply written_firstn. exact Hw.
  Qed.

  Lemma deref_length : forall I (x : memory I) (y : list I), expose x = Done y -> length y = length x.
  Proof.
    induction x as [|[x0|] x IH]; intros y Hy; cbn [expose] in Hy; [inversion Hy; reflexivity| |discriminate]. destruct (expose x) as [z| | |]; cbn [run_bind] in Hy; try discriminate.
    inversion Hy; subst. cbn [length]. f_equal. auto.
  Qed.

  Lemma fixed_write_safe : forall I (b : fixed I) l, fixed_safe_inv m b -> fine (fixed_safe_inv m) (fixed_write b l).
  Proof.
    intros I b l (Hl & Hp & Hw). unfold fixed_write, fixed_deref. eapply fine_bind with (Q := fun old => f_used b <= f_populated b /\ length old = f_populated b - f_used b).
    - eapply fine_bind; [apply fine_assert|]. intros u _ Hc; cbv beta in Hc. rewrite andb_true_iff, !Nat.leb_le in Hc.
      destruct (@written_deref I (f_mem b) (f_populated b) (f_used b)) as [l' E]; try tauto. rewrite E. cbn [fine]. split; [tauto|]. rewrite (deref_length _ E), firstn_length, skipn_length. lia.
    - intros old _ [Hu Ho]. eapply fine_bind; [apply fine_assert|]. intros u _ Hc; cbv beta in Hc. apply Nat.eqb_eq in Hc. cbn [fine]. unfold fixed_safe_inv. cbn [f_mem f_populated].
      destruct (@write_written I (f_mem b) l (f_populated b) (f_used b)) as [H1 H2]; try assumption; [lia|]. rewrite H1. auto.
  Qed.

  Lemma growing_write_safe : forall I (b : growing I) l, growing_used_inv m b -> fine (growing_used_inv m) (growing_write b l).
  Proof.
    intros I b l [(Hl & Hcap & Hp & Hu & Hw) Hup]. unfold growing_write, growing_deref. eapply fine_bind with (Q := fun old => length old = g_populated b - g_used b).
    - eapply fine_bind; [apply fine_assert|]. intros u _ Hc; cbv beta in Hc. rewrite andb_true_iff, !Nat.leb_le in Hc.
      destruct (@written_deref I (g_mem b) (g_populated b) (g_used b)) as [l' E]; try tauto. rewrite E. cbn [fine]. rewrite (deref_length _ E), firstn_length, skipn_length. lia.
    - intros old _ Ho. eapply fine_bind; [apply fine_assert|]. intros u _ Hc; cbv beta in Hc. apply Nat.eqb_eq in Hc. cbn [fine]. unfold growing_used_inv, growing_safe_inv. cbn [g_mem g_populated g_cap g_used].
      destruct (@write_written I (g_mem b) l (g_populated b) (g_used b)) as [H1 H2]; try assumption; [lia|]. rewrite H1. auto 10.
  Qed.

  Lemma u_fixed_reached : forall I (b0 b : fixed I), fixed_safe_inv m b0 -> u_reached m (u_fixed_ops I m) fixed_write any_amount b0 b -> fixed_safe_inv m b.
  Proof.
    intros I b0 b H0 H. induction H as [|b n b' Hh IH Hn H|b n b' Hh IH Hn Hm H|St ds s b b' s' Hh IH Ho H|b l b' Hh IH H]; auto.
    - exact (okc_leaves _ (u_fixed_request_safe n IH) H).
    - exact (okc_leaves _ (us_consume (u_fixed_safe I) _ n IH) H).
    - pose proof (us_fill (u_fixed_safe I) b s Ho IH) as G. destruct H as [E|[a E]]; rewrite E in G; apply G.
    - pose proof (fixed_write_safe l IH) as G. rewrite H in G. exact G.
  Qed.

  Lemma u_fixed_survives : forall I (b0 b : fixed I), fixed_safe_inv m b0 -> u_reached m (u_fixed_ops I m) fixed_write any_amount b0 b ->
    buffer_survives m (u_fixed_ops I m) fixed_write b.
  Proof.
    intros I b0 b H0 H. pose proof (u_fixed_reached H0 H) as Hb. split.
    - eapply fine_defined, (us_deref (u_fixed_safe I)), Hb.
    - eapply fine_defined, (us_len (u_fixed_safe I)), Hb.
    - intros n _. eapply okc_survives. apply (u_fixed_request_safe n Hb).
    - intros n. eapply okc_survives, (us_consume (u_fixed_safe I)), Hb.
    - intros St ds s Ho. eapply okc_survives, (us_fill (u_fixed_safe I)); assumption.
    - intros l. eapply fine_defined, fixed_write_safe, Hb.
  Qed.

  Lemma u_growing_consume_used : forall I (b : growing I) n, growing_used_inv m b -> u_held (u_growing_ops I m) b n -> okc (fun b _ => growing_used_inv m b) (u_growing_consume m b n).
  Proof.
    pose proof P as P'. unfold platform in P'. intros I b n Hb Hn. apply (growing_held Hb) in Hn. unfold u_growing_consume. eapply okc_at; [apply sum_fine; exact P|exact Hb|]. intros _ _ _.
    destruct Hb as [(Hl & Hcap & Hp & Hu & Hw) Hup]. rewrite add_fits by lia. cbn [at_state okc]. unfold growing_used_inv, growing_safe_inv. cbn [g_mem g_populated g_cap g_used].
    repeat split; auto; lia.
  Qed.

  Lemma u_growing_fill_used : forall I St (ds : panicky_source St I) (b : growing I) s, p_obeys ds -> growing_used_inv m b ->
    okc (fun x _ => growing_used_inv m (fst x)) (u_growing_fill m ds b s).
  Proof.
    pose proof P as P'. unfold platform in P'. intros I St ds b s Ho [Hb Hup]. pose proof (us_fill (u_growing_safe I) b s Ho Hb) as G. cbn [u_growing_ops u_fill] in G.
    destruct (u_growing_fill m ds b s) as [[b' s'] r|[b' s']| |] eqn:E; cbn [okc fst] in *; try contradiction; (split; [apply G|]); destruct G as [_ G]; unfold u_growing_fill in E;
      destruct Hb as (Hl & Hcap & Hp & Hu & Hw); rewrite assert_true in E by (apply Nat.leb_le; exact Hp); cbn [at_state] in E; destruct (ps_read ds s _) as [[s1 w] [[n|e]|]] eqn:Er; cbn [g_populated g_used] in E.
    - destruct (Ho _ _ _ _ _ Er) as [Hn _]. destruct (w_debug_assert_sum _ _ _ _) as [x| | |]; cbn [at_state] in E; try discriminate. rewrite add_fits in E by lia. cbn [at_state] in E. inversion E; subst.
      cbn [g_used g_populated]. lia.
    - inversion E; subst. exact Hup.
    - discriminate.
    - destruct (Ho _ _ _ _ _ Er) as [Hn _]. destruct (w_debug_assert_sum _ _ _ _) as [x| | |]; cbn [at_state] in E; try discriminate; [|inversion E; subst; exact Hup].
      rewrite add_fits in E by lia. cbn [at_state] in E. discriminate.
    - discriminate.
    - inversion E; subst. exact Hup.
  Qed.

  Lemma u_growing_request_used : forall I (b : growing I) n, growing_used_inv m b -> okc (fun b _ => growing_used_inv m b) (u_growing_request_space m b n).
  Proof.
    intros I b n Hb. apply okc_outcome.
    - pose proof (so_request (same_growing I m) b n) as Hs. cbn [u_growing_ops u_request_space] in Hs. rewrite Hs. eapply fine_bind; [apply (growing_request_safe P n Hb)|]. intros b' _ Hb'. exact Hb'.
    - intros b' E. apply u_growing_request_unwinds in E; [|exact (proj1 Hb)]. subst. exact Hb.
  Qed.

  Lemma u_growing_reached : forall I (b0 b : growing I), growing_used_inv m b0 -> u_reached m (u_growing_ops I m) growing_write (u_held (u_growing_ops I m)) b0 b -> growing_used_inv m b.
  Proof.
    intros I b0 b H0 H. induction H as [|b n b' Hh IH Hn H|b n b' Hh IH Hn Hm H|St ds s b b' s' Hh IH Ho H|b l b' Hh IH H]; auto.
    - exact (okc_leaves _ (u_growing_request_used n IH) H).
    - exact (okc_leaves _ (u_growing_consume_used IH Hm) H).
    - pose proof (u_growing_fill_used s Ho IH) as G. destruct H as [E|[a E]]; cbn [u_growing_ops u_fill] in E; rewrite E in G; apply G.
    - pose proof (growing_write_safe l IH) as G. rewrite H in G. exact G.
  Qed.

  Lemma u_growing_survives : forall I (b0 b : growing I), growing_used_inv m b0 -> u_reached m (u_growing_ops I m) growing_write (u_held (u_growing_ops I m)) b0 b ->
    buffer_survives m (u_growing_ops I m) growing_write b.
  Proof.
    intros I b0 b H0 H. pose proof (u_growing_reached H0 H) as Hb. split.
    - eapply fine_defined, (us_deref (u_growing_safe I)), Hb.
    - eapply fine_defined, (us_len (u_growing_safe I)), Hb.
    - intros n _. eapply okc_survives. apply (u_growing_request_used n Hb).
    - intros n. eapply okc_survives, (us_consume (u_growing_safe I)), Hb.
    - intros St ds s Ho. eapply okc_survives, (us_fill (u_growing_safe I)); [assumption|apply Hb].
    - intros l. eapply fine_defined, growing_write_safe, Hb.
  Qed.
End Safe.

(** * A parser that panics has no effect *)
Section Retry.
  Context {St I B : Type}.
  Variables (m : machine) (ds : panicky_source St I) (o : u_ops I B).
  Hypothesis C : forall b n b', u_consume o b n = Unwinds b' -> b' = b.

  Lemma src_same : forall st : src St B, src_with st (src_buffer st) (src_source st) = st.
  Proof. intros [s b q i e a]. reflexivity. Qed.

  Lemma parse_retry : forall T E (p : parser I T E) st st' T' E' (q : parser I T' E') st2 r,
    u_src_parse m ds o p st = Unwinds st' -> u_src_parse m ds o q st = Returns st2 r ->
    forall T'' E'' (q' : parser I T'' E''), u_src_parse m ds o q' st' = u_src_parse m ds o q' st.
  Proof.
    intros T E p st st' T' E' q st2 r Hp Hq T'' E'' q'. unfold u_src_parse in Hp, Hq.
    destruct (if src_incomplete st && src_auto st then u_src_fill m ds o st else Returns st (IoOk 0)) as [st1 k|st1| |] eqn:E0; cbn [on_part] in Hp, Hq; try discriminate.
    destruct k as [k|e]; [|discriminate].
    assert (H1 : st' = st1).
    { destruct (u_src_is_empty o st1) as [[|]| | |]; cbn [at_state] in Hp; try congruence.
      destruct (u_deref o (src_buffer st1)) as [d| | |]; cbn [at_state] in Hp; try congruence.
      destruct (p (mkInput (src_eoi st1) d)) as [j v|b0 er|n| |]; try congruence;
        (destruct (u_len o (src_buffer st1)) as [l| | |]; cbn [at_state] in Hp; try congruence).
      - destruct (w_sub m l _) as [n| | |]; cbn [at_state] in Hp; try congruence.
        destruct (u_consume o (src_buffer st1) n) as [b u|b| |] eqn:Ec; cbn [on_part] in Hp; try congruence. rewrite (C _ _ Ec), src_same in Hp. congruence.
      - destruct (w_sub m l _) as [n| | |]; cbn [at_state] in Hp; try congruence.
        destruct (u_consume o (src_buffer st1) n) as [b u|b| |] eqn:Ec; cbn [on_part] in Hp; try congruence. rewrite (C _ _ Ec), src_same in Hp. congruence.
      - destruct (w_add m l n) as [t| | |]; cbn [at_state] in Hp; try congruence. destruct (src_eoi st1); discriminate. }
    subst st'.
    assert (H2 : src_incomplete st1 && src_auto st1 = false).
    { destruct (src_incomplete st && src_auto st) eqn:Ef; [|inversion E0; subst; exact Ef]. unfold u_src_fill in E0.
      destruct (u_fill_requested m ds o _ st) as [st3 [n|e]|st3| |]; cbn [on_part] in E0; try discriminate. destruct (u_len o _) as [l| | |]; cbn [at_state] in E0; try discriminate.
      inversion E0; subst. reflexivity. }
    unfold u_src_parse. rewrite H2, E0. reflexivity.
  Qed.
End Retry.

Lemma fixed_consume_unwinds : forall I m (b : fixed I) n b', u_consume (u_fixed_ops I m) b n = Unwinds b' -> b' = b.
Proof.
  intros I m b n b' H. cbn [u_fixed_ops u_consume] in H. unfold u_fixed_consume in H. destruct (w_debug_assert_sum _ _ _ _) as [x| | |]; cbn [at_state] in H; try congruence.
  destruct (w_add _ _ _) as [y| | |]; cbn [at_state] in H; try discriminate. congruence.
Qed.
Lemma growing_consume_unwinds : forall I m (b : growing I) n b', u_consume (u_growing_ops I m) b n = Unwinds b' -> b' = b.
Proof.
  intros I m b n b' H. cbn [u_growing_ops u_consume] in H. unfold u_growing_consume in H. destruct (w_debug_assert_sum _ _ _ _) as [x| | |]; cbn [at_state] in H; try discriminate; [|congruence].
  destruct (w_add _ _ _) as [y| | |]; cbn [at_state] in H; try discriminate. congruence.
Qed.

(** * Nothing is lost *)

(** What a call leaves is [Q], if it ends. *)
Definition lv {S A} (Q : S -> Prop) (c : call S A) : Prop :=
  match c with
  | Returns s _ => Q s
  | Unwinds s => Q s
  | _ => True
  end.
Lemma lv_at : forall S X A (Q : S -> Prop) st (r : run X) (k : X -> call S A), Q st -> (forall x, r = Done x -> lv Q (k x)) -> lv Q (at_state st r k).
Proof. intros S X A Q st [x| | |] k Hq Hk; cbn [at_state lv] in *; auto. Qed.
Lemma lv_part : forall S S' X A (R : S' -> Prop) (Q : S -> Prop) put (c : call S' X) (k : S' -> X -> call S A),
  lv R c -> (forall s, R s -> Q (put s)) -> (forall s x, R s -> lv Q (k s x)) -> lv Q (on_part put c k).
Proof. intros S S' X A R Q put [s x|s| |] k Hc Hp Hk; cbn [on_part lv] in *; auto. Qed.
Lemma lv_leaves : forall S A (Q : S -> Prop) (c : call S A) st, lv Q c -> leaves c st -> Q st.
Proof. intros S A Q c st H [->|[a ->]]; exact H. Qed.

Lemma p_obeys_logged : forall St I (ds : panicky_source St I), p_obeys ds -> p_obeys (p_logged ds).
Proof.
  intros St I ds H l n l' w k Hr. unfold p_logged in Hr. cbn [ps_read] in Hr. destruct (ps_read ds (log_state l) n) as [[s' w'] r] eqn:E. inversion Hr; subst. exact (H _ _ _ _ _ E).
Qed.

Section Lossless.
  Variable m : machine.
  Hypothesis P : platform m.
  Context {St I : Type}.
  Variable ds : panicky_source St I.
  Hypothesis O : p_obeys ds.

  Record u_keeps {B} (o : u_ops I B) (ok : B -> Prop) (view : B -> list I) : Prop := mkUKeeps {
    uk_deref : forall b, ok b -> u_deref o b = Done (view b);
    uk_request : forall b n, ok b -> lv (fun b' => ok b' /\ view b' = view b) (u_request_space o b n);
    uk_fill : forall b s, ok b -> lv (fun x => ok (fst x) /\ exists c, log_items (snd x) = log_items s ++ c /\ view (fst x) = view b ++ c) (u_fill o (p_logged ds) b s);
    uk_consume : forall b n b', u_consume o b n = Unwinds b' -> b' = b }.

  Section Generic.
    Context {B : Type}.
    Variables (o : u_ops I B) (ok : B -> Prop) (view : B -> list I).
    Hypothesis K : u_keeps o ok view.

    Definition grown (b : B) (l : log St I) (b' : B) (l' : log St I) : Prop := ok b' /\ exists c, log_items l' = log_items l ++ c /\ view b' = view b ++ c.
    Lemma grown_refl : forall b l, ok b -> grown b l b l.
    Proof. intros b l H. split; [exact H|]. exists []. rewrite !app_nil_r. auto. Qed.
    Lemma grown_trans : forall b1 l1 b2 l2 b3 l3, grown b1 l1 b2 l2 -> grown b2 l2 b3 l3 -> grown b1 l1 b3 l3.
    Proof. intros b1 l1 b2 l2 b3 l3 [H1 (c & E1 & E2)] [H2 (c' & E3 & E4)]. split; [exact H2|]. exists (c ++ c'). rewrite E3, E1, E4, E2, !app_assoc. auto. Qed.

    Lemma lv_loop : forall fuel q n b l, ok b -> lv (fun x => grown b l (fst x) (snd x)) (u_fill_loop m (p_logged ds) o fuel q n b l).
    Proof.
      induction fuel as [|fuel IH]; intros q n b l Hb; [exact Logic.I|]. cbn [u_fill_loop]. apply lv_at; [apply grown_refl, Hb|]. intros len _. destruct (len <? q); [|apply grown_refl, Hb].
      eapply lv_part; [apply (uk_fill K b l Hb)|intros x Hx; exact Hx|]. intros [b1 l1] r H1. cbn [fst snd] in H1. destruct r as [[|k]|e]; try exact H1.
      apply lv_at; [exact H1|]. intros n' _. pose proof (IH q n' b1 l1 (proj1 H1)) as G. destruct (u_fill_loop _ _ _ _ _ _ _ _) as [x y|x| |]; cbn [lv] in *; auto; eapply grown_trans; eassumption.
    Qed.

    Definition gst (st st' : src (log St I) B) : Prop := grown (src_buffer st) (src_source st) (src_buffer st') (src_source st').

    Lemma lv_requested : forall q st, ok (src_buffer st) -> lv (gst st) (u_fill_requested m (p_logged ds) o q st).
    Proof.
      intros q st Hb. pose proof (grown_refl (src_source st) Hb) as R. unfold u_fill_requested. apply lv_at; [exact R|]. intros l _. destruct (l <? q); [|exact R].
      apply lv_at; [exact R|]. intros d _. eapply lv_part; [apply (uk_request K _ d Hb)| |].
      - intros b [H1 H2]. split; [exact H1|]. exists []. cbn. rewrite H2, !app_nil_r. auto.
      - intros b u [H1 H2]. assert (G : grown (src_buffer st) (src_source st) b (src_source st)) by (split; [exact H1|exists []; rewrite H2, !app_nil_r; auto]).
        eapply lv_part; [apply lv_loop, H1|intros x Hx; eapply grown_trans; eassumption|intros x r Hx; eapply grown_trans; eassumption].
    Qed.

    Lemma lv_fill : forall st, ok (src_buffer st) -> lv (gst st) (u_src_fill m (p_logged ds) o st).
    Proof.
      intros st Hb. unfold u_src_fill. eapply lv_part; [apply lv_requested, Hb|auto|]. intros st1 [n|e] H1; [|exact H1]. apply lv_at; [exact H1|]. intros l _. exact H1.
    Qed.

    Lemma lv_fill_buf : forall st, ok (src_buffer st) -> lv (gst st) (u_src_fill_buf m (p_logged ds) o st).
    Proof.
      intros st Hb. unfold u_src_fill_buf. eapply lv_part; [apply lv_requested, Hb|auto|]. intros st1 [n|e] H1; [|exact H1]. apply lv_at; [exact H1|]. intros l _. exact H1.
    Qed.

    Lemma unwinds_at : forall S X A (Q : S -> Prop) st (r : run X) (k : X -> call S A) st', Q st -> (forall x, k x = Unwinds st' -> Q st') -> at_state st r k = Unwinds st' -> Q st'.
    Proof. intros S X A Q st [x| | |] k st' Hq Hk H; cbn [at_state] in H; try discriminate; [exact (Hk x H)|congruence]. Qed.

    Lemma unwinds_consume : forall A (st st1 st' : src (log St I) B) n (a : A), gst st st1 ->
      on_part (fun b => src_with st1 b (src_source st1)) (u_consume o (src_buffer st1) n) (fun b _ => Returns (src_with st1 b (src_source st1)) a) = Unwinds st' -> gst st st'.
    Proof.
      intros A st st1 st' n a H1 H. destruct (u_consume o (src_buffer st1) n) as [b u|b| |] eqn:Ec; cbn [on_part] in H; try discriminate. rewrite (uk_consume K _ _ Ec), src_same in H. inversion H; subst. exact H1.
    Qed.

    Lemma read_unwinds : forall n st st', ok (src_buffer st) -> u_src_read m (p_logged ds) o n st = Unwinds st' -> gst st st'.
    Proof.
      intros n st st' Hb H. pose proof (grown_refl (src_source st) Hb) as R. unfold u_src_read in H. revert H. apply unwinds_at; [exact R|]. intros l H.
      assert (G : lv (gst st) (if l <? n then u_fill_requested m (p_logged ds) o n st else Returns st (IoOk 0))) by (destruct (l <? n); [apply lv_requested, Hb|exact R]).
      destruct (if l <? n then _ else _) as [st1 [k|e]|st1| |]; cbn [on_part lv] in H, G; try discriminate; [|inversion H; subst; exact G].
      revert H. apply unwinds_at; [exact G|]. intros d H. exact (unwinds_consume _ _ G H).
    Qed.

    Lemma parse_unwinds : forall T E (p : parser I T E) st st', ok (src_buffer st) -> u_src_parse m (p_logged ds) o p st = Unwinds st' -> gst st st'.
    Proof.
      intros T E p st st' Hb H. pose proof (grown_refl (src_source st) Hb) as R. unfold u_src_parse in H.
      assert (G : lv (gst st) (if src_incomplete st && src_auto st then u_src_fill m (p_logged ds) o st else Returns st (IoOk 0))) by (destruct (_ && _); [apply lv_fill, Hb|exact R]).
      destruct (if src_incomplete st && src_auto st then _ else _) as [st1 [k|e]|st1| |]; cbn [on_part lv] in H, G; try discriminate; [|inversion H; subst; exact G].
      revert H. apply unwinds_at; [exact G|]. intros [|] H; [discriminate|]. revert H. apply unwinds_at; [exact G|]. intros d H.
      destruct (p (mkInput (src_eoi st1) d)) as [j v|b0 er|n| |]; try discriminate; [| | |inversion H; subst; exact G]; revert H; (apply unwinds_at; [exact G|]; intros l H); revert H; (apply unwinds_at; [exact G|]; intros x H).
      - exact (unwinds_consume _ _ G H).
      - exact (unwinds_consume _ _ G H).
      - destruct (src_eoi st1); discriminate.
    Qed.

    Lemma consume_unwinds : forall n (st st' : src (log St I) B), u_src_consume o n st = Unwinds st' -> st' = st.
    Proof.
      intros n st st' H. unfold u_src_consume in H. destruct (u_consume o (src_buffer st) n) as [b u|b| |] eqn:Ec; cbn [on_part] in H; try discriminate. rewrite (uk_consume K _ _ Ec), src_same in H. congruence.
    Qed.

    Lemma gst_lossless : forall st st', ok (src_buffer st) -> gst st st' -> lossless o st st'.
    Proof.
      intros st st' Hb (Hb' & c & E1 & E2) v Hv. rewrite (uk_deref K _ Hb) in Hv. inversion Hv; subst. exists c. split; [exact E1|]. rewrite (uk_deref K _ Hb'), E2. reflexivity.
    Qed.
  End Generic.

  Lemma expose_inv : forall (x : memory I) v, expose x = Done v -> x = List.map Some v.
  Proof.
    induction x as [|[a|] x IH]; intros v H; cbn [expose] in H; [inversion H; reflexivity| |discriminate]. destruct (expose x) as [l| | |]; cbn [run_bind] in H; try discriminate.
    inversion H; subst. cbn [List.map]. f_equal. apply IH. reflexivity.
  Qed.

  Definition fixed_ok (b : fixed I) : Prop := sound (f_mem b) (f_populated b) (f_used b) /\ length (f_mem b) <= w_alloc m.

  Lemma fixed_ok_intro : forall b v, fixed_safe_inv m b -> fixed_deref b = Done v -> fixed_ok b.
  Proof.
    intros b v (Hl & Hp & Hw) H. split; [|exact Hl]. unfold fixed_deref in H. destruct ((f_used b <=? f_populated b) && (f_populated b <=? length (f_mem b))) eqn:E; cbn [assert run_bind] in H; [|discriminate].
    apply andb_true_iff in E. rewrite !Nat.leb_le in E. apply expose_inv in H. eapply sound_intro; [apply E|apply E|exact H].
  Qed.

  Lemma fixed_keeps : u_keeps (u_fixed_ops I m) fixed_ok fixed_view.
  Proof.
    pose proof P as P'. unfold platform in P'. split; cbn [u_fixed_ops u_deref u_request_space u_fill u_consume].
    - intros b [Hs Hl]. pose proof Hs as (Hu & Hp & _). unfold fixed_deref. ok. apply sound_expose, Hs.
    - intros b n Hb. pose proof Hb as [Hs Hl]. pose proof Hs as (Hu & Hp & _). unfold u_fixed_request_space. rewrite assert_true by (apply Nat.leb_le; exact Hu). cbn [at_state].
      rewrite sub_fits by assumption. cbn [at_state]. destruct (_ <? n); [|split; [exact Hb|reflexivity]]. rewrite sub_fits by assumption. cbn [at_state].
      destruct (sound_move Hs) as (m' & Hc & Hl' & Hs' & Hv'). rewrite Hc. cbn [at_state lv]. unfold fixed_ok, fixed_view. cbn [f_mem f_populated f_used]. rewrite Hl'. auto.
    - intros b s [Hs Hl]. pose proof Hs as (Hu & Hp & _). unfold u_fixed_fill. rewrite assert_true by (apply Nat.leb_le; exact Hp). cbn [at_state p_logged ps_read].
      destruct (ps_read ds (log_state s) _) as [[s1 w] r] eqn:E. destruct (@sound_failed _ _ _ _ w Hs) as (Hl' & Hs' & Hv').
      assert (G : forall l', log_items l' = log_items s -> (fun x => fixed_ok (fst x) /\ exists c, log_items (snd x) = log_items s ++ c /\ fixed_view (fst x) = fixed_view b ++ c)
        (mkFixed (firstn (f_populated b) (f_mem b) ++ overwrite w (skipn (f_populated b) (f_mem b))) (f_populated b) (f_used b), l' : log St I)).
      { intros l' El. unfold fixed_ok, fixed_view. cbn [fst snd f_mem f_populated f_used]. rewrite Hl', Hv', El. split; [auto|]. exists []. rewrite !app_nil_r. auto. }
      destruct r as [[k|e]|]; cbn [f_populated f_used].
      + destruct (O _ _ E) as [Hk Hw]. destruct (sound_fill Hs Hk Hw) as (Hl2 & Hs2 & Hv2).
        assert (Hd : w_debug_assert_sum m (f_populated b) k (length (firstn (f_populated b) (f_mem b) ++ overwrite w (skipn (f_populated b) (f_mem b)))) = Done tt).
        { unfold w_debug_assert_sum. destruct (w_debug m); [|reflexivity]. rewrite add_fits by lia. cbn [run_bind]. apply assert_true, Nat.leb_le. lia. }
        rewrite Hd. cbn [at_state]. rewrite add_fits by lia. cbn [at_state lv fst snd log_items]. unfold fixed_ok, fixed_view. cbn [f_mem f_populated f_used]. rewrite Hl2, Hv2. split; [auto|]. eauto.
      + exact (G (mkLog s1 (log_items s) (log_ended s)) eq_refl).
      + exact (G (mkLog s1 (log_items s) (log_ended s)) eq_refl).
    - apply fixed_consume_unwinds.
  Qed.

  Definition growing_ok (b : growing I) : Prop := sound (g_mem b) (g_populated b) (g_used b) /\ growing_safe_inv m b.

  Lemma growing_ok_intro : forall b v, growing_safe_inv m b -> growing_deref b = Done v -> growing_ok b.
  Proof.
    intros b v Hb H. split; [|exact Hb]. unfold growing_deref in H. destruct ((g_used b <=? g_populated b) && (g_populated b <=? length (g_mem b))) eqn:E; cbn [assert run_bind] in H; [|discriminate].
    apply andb_true_iff in E. rewrite !Nat.leb_le in E. apply expose_inv in H. eapply sound_intro; [apply E|apply E|exact H].
  Qed.

  Lemma growing_keeps : u_keeps (u_growing_ops I m) growing_ok growing_view.
  Proof.
    pose proof P as P'. unfold platform in P'. split; cbn [u_growing_ops u_deref u_request_space u_fill u_consume].
    - intros b [Hs Hb]. pose proof Hs as (Hu & Hp & _). unfold growing_deref. ok. apply sound_expose, Hs.
    - intros b n Hb. pose proof Hb as [Hs Hi]. pose proof Hs as (Hu & Hp & _).
      assert (Hused : growing_used_inv m b) by (split; assumption).
      pose proof (u_growing_request_used P n Hused) as Hr.
      destruct (u_growing_request_space m b n) as [b' u|b'| |] eqn:E; cbn [okc lv] in *; try exact Logic.I.
      2:{ apply u_growing_request_unwinds in E; [|exact Hi]. subst. split; [exact Hb|reflexivity]. }
      assert (G : sound (g_mem b') (g_populated b') (g_used b') /\ growing_view b' = growing_view b); [|destruct G as [G1 G2]; split; [split; [exact G1|apply Hr]|exact G2]].
      clear Hr. unfold u_growing_request_space in E. destruct (_ && _); [inversion E; subst; split; [exact Hs|reflexivity]|].
      destruct (w_growing_len m b) as [l| | |]; cbn [at_state] in E; try discriminate. destruct (w_add m n l) as [t| | |]; cbn [at_state] in E; try discriminate.
      destruct (if g_cap b <? t then _ else _) as [b1| | |] eqn:E1 in E; cbn [at_state] in E; try discriminate.
      assert (G : sound (g_mem b1) (g_populated b1) (g_used b1) /\ growing_view b1 = growing_view b).
      { destruct (g_cap b <? t); [|inversion E1; subst; split; [exact Hs|reflexivity]]. unfold w_growing_reserve, growing_reserve in E1.
        destruct (n <=? _); [|destruct (assert _); cbn [run_bind] in E1; try discriminate]; cbn [run_bind] in E1; inversion E1; subst; unfold growing_view; cbn [growing_set_len g_populated g_used g_mem g_cap];
          apply sound_grow, Hs. }
      destruct G as [G1 G2]. pose proof G1 as (Hu1 & Hp1 & _). rewrite sub_fits in E by assumption. cbn [at_state] in E. destruct (_ <? n); [|inversion E; subst; auto].
      rewrite sub_fits in E by assumption. cbn [at_state] in E. destruct (sound_move G1) as (m' & Hc & Hl' & Hs' & Hv'). rewrite Hc in E. cbn [at_state] in E. inversion E; subst.
      unfold growing_view in *. cbn [g_mem g_populated g_used]. rewrite Hv'. auto.
    - intros b s [Hs Hi]. pose proof Hs as (Hu & Hp & _). pose proof (us_fill (u_growing_safe P I) b s (p_obeys_logged O) Hi) as Hr. cbn [u_growing_ops u_fill] in Hr.
      assert (G : lv (fun x => sound (g_mem (fst x)) (g_populated (fst x)) (g_used (fst x)) /\ exists c, log_items (snd x) = log_items s ++ c /\ growing_view (fst x) = growing_view b ++ c) (u_growing_fill m (p_logged ds) b s)).
      2:{ destruct (u_growing_fill m (p_logged ds) b s) as [x r|x| |]; cbn [okc lv] in *; auto; (split; [split; [apply G|apply Hr]|apply G]). }
      clear Hr. destruct Hi as (Hl & Hcap & _ & _ & _). unfold u_growing_fill. rewrite assert_true by (apply Nat.leb_le; exact Hp). cbn [at_state p_logged ps_read].
      destruct (ps_read ds (log_state s) _) as [[s1 w] r] eqn:E. destruct (@sound_failed _ _ _ _ w Hs) as (Hl' & Hs' & Hv').
      destruct r as [[k|e]|]; cbn [g_populated g_used].
      + destruct (O _ _ E) as [Hk Hw]. destruct (sound_fill Hs Hk Hw) as (Hl2 & Hs2 & Hv2).
        assert (Hd : w_debug_assert_sum m (g_populated b) k (length (firstn (g_populated b) (g_mem b) ++ overwrite w (skipn (g_populated b) (g_mem b)))) = Done tt).
        { unfold w_debug_assert_sum. destruct (w_debug m); [|reflexivity]. rewrite add_fits by lia. cbn [run_bind]. apply assert_true, Nat.leb_le. lia. }
        rewrite Hd. cbn [at_state]. rewrite add_fits by lia. cbn [at_state lv fst snd log_items]. unfold growing_view. cbn [g_mem g_populated g_used]. rewrite Hv2. eauto.
      + cbn [lv fst snd log_items]. unfold growing_view. cbn [g_mem g_populated g_used]. rewrite Hv'. split; [exact Hs'|]. exists []. rewrite !app_nil_r. auto.
      + cbn [lv fst snd log_items]. unfold growing_view. cbn [g_mem g_populated g_used]. rewrite Hv'. split; [exact Hs'|]. exists []. rewrite !app_nil_r. auto.
    - apply growing_consume_unwinds.
  Qed.
End Lossless.
