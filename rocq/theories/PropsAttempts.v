(** Property theorems C68: a parser made of [k] parts which say at once how much they need is run at most [k + 1] times for one answer of a
    Source, however the data arrives. *)
From Coq Require Import List Bool Arith Lia.
From Verif Require Import Base Parsers Combinators SpecBase SpecIter SpecSafe SpecAttempts Buffer Stream SpecBuffer SpecStream SpecEffects Effects
  BufferProofs StreamProofs SimProofs HistoryProofs StableProofs EffectsStreamProofs AttemptsProofs PropsBuffer PropsStream.
Import ListNotations.

(** * The parsers *)

(** The parts bound the requests. *)
Theorem C68_sized : forall I k T E (p : parser I T E), sized k p -> forall b, asks_at_most k p b.
Proof. exact sized_asks. Qed.
Print Assumptions C68_sized.

(** In particular one [take], [string] or [any] is answered after one request; [count(n, _)] after [n] times as many as its part. *)
Theorem C68_one : forall I v eqb s n (b : list I), asks_at_most 1 (take n) b /\ asks_at_most 1 (string v eqb s) b /\ asks_at_most 1 any b.
Proof. intros. repeat split; apply C68_sized; [apply z_take|apply z_string|apply z_any]. Qed.
Print Assumptions C68_one.
Theorem C68_count : forall S I U E k n fuel s0 (p : sparser S I U E), carries p -> (forall s, sized k (fun i => fst (p s i))) ->
  forall b, asks_at_most (n * k) (count fuel (vec_collector U) n s0 p) b.
Proof.
  intros S I U E k n fuel s0 p Hc Hp. apply C68_sized, z_bmany; auto; [exists n; reflexivity|]. intros m Hm. cbn in Hm. lia.
Qed.
Print Assumptions C68_count.

(** A request is met by exactly the items asked for, so the bound counts requests and not items: [take(1000000)] asks once. *)
Example C68_case_sized : sized 5 (fun i : input nat => bind (fun e => e) (string true Nat.eqb [7; 8] i)
    (fun i _ => bind (fun e => e) (any i) (fun i n => count 9 (vec_collector (list nat)) 3 tt (pure (take n)) i))).
Proof.
  apply (z_bind (k := 1) (l := 4)); [apply z_string|]. intros _. apply (z_bind (k := 1) (l := 3)); [apply z_any|]. intros n.
  apply (z_bmany (k := 1) (m := 3)); [exists 3; reflexivity|intros m Hm; cbn in Hm; lia|apply pure_carries|]. intros s. apply z_take.
Qed.

(** [take_while] asks as often as there is no end: no number will do. *)
Theorem C68_take_while_refuted : forall I (c : I) k, ~ (forall b, asks_at_most k (take_while (fun _ : I => true)) b).
Proof.
  intros I c k H. assert (Hall : forall b, take_while (fun _ : I => true) (mkInput false b) = Incomplete 1).
  { intros b. assert (Hp : position (fun c0 : I => Bool.eqb ((fun _ : I => true) c0) false) b = None); [|unfold take_while; cbn [buf last]; rewrite Hp; reflexivity].
    induction b as [|x b IH]; [reflexivity|]. cbn in *. rewrite IH. reflexivity. }
  specialize (H []). revert H. generalize (@nil I). induction k as [|k IH]; intros b H; cbn [asks_at_most] in H; specialize (H 1 (Hall b)); [assumption|].
  exact (IH _ (H [c] (le_n 1))).
Qed.
Print Assumptions C68_take_while_refuted.

(** The bound of [C68_sized] is met for every number of parts: no smaller number will do. *)
Theorem C68_least : forall I (c : I) n, sized (S n) (@row_of I (S n)) /\ ~ (forall b, asks_at_most n (@row_of I (S n)) b).
Proof.
  intros I c n. split; [apply items_sized|]. intros H.
  assert (Hgo : forall k b, length b + k < S n -> ~ asks_at_most k (@row_of I (S n)) b).
  { induction k as [|k IH]; intros b Hb Ha; assert (Hi : row_of (S n) (mkInput false b) = Incomplete 1)
      by (rewrite items_char, (proj2 (Nat.ltb_lt _ _)) by lia; reflexivity); cbn [asks_at_most] in Ha; specialize (Ha 1 Hi); [assumption|].
    apply (IH (b ++ [c])); [rewrite app_length; cbn; lia|]. apply Ha. cbn. lia. }
  exact (Hgo n [] ltac:(cbn; lia) (H [])).
Qed.
Print Assumptions C68_least.

(** * Streams *)

(** In any state reached, with automatic filling, whatever the sizes of the reads and whichever of them fail, with a buffer of any size: at
    most [k + 1] runs until there is an answer. *)
Theorem C68_fixed : forall St I (ds : data_source St I) size b0 T E (p : parser I T E) k adm s0 st out fuel w st' r w',
  fixed_with_size size = Done b0 -> obeys ds -> history ds (fixed_ops I) adm s0 b0 st out -> src_auto st = true ->
  well_behaved p -> (forall b, asks_at_most k p b) ->
  insist_w ds (fixed_ops I) fuel (counted p) st w = (Done (st', r), w') -> w' <= w + k + 1.
Proof.
  intros St I ds size b0 T E p k adm s0 st out fuel w st' r w' Hn Ho Hh Ha Hw Hk H. destruct (fixed_fresh I size b0 Hn) as (_ & Hi & Hv).
  destruct (history_inv (fixed_queue size) Ho Hi Hv Hh) as (Hi' & _).
  eapply (@runs_bound St I _ ds _ _ _ _ _ (fixed_queue size) Ho); eauto. intros d _. apply Hk.
Qed.
Print Assumptions C68_fixed.
Theorem C68_growing : forall St I (ds : data_source St I) cap0 alloc limit T E (p : parser I T E) k adm s0 st out fuel w st' r w',
  obeys ds -> history ds (growing_ops I) adm s0 (growing_with_limit cap0 alloc limit) st out -> src_auto st = true ->
  well_behaved p -> (forall b, asks_at_most k p b) ->
  insist_w ds (growing_ops I) fuel (counted p) st w = (Done (st', r), w') -> w' <= w + k + 1.
Proof.
  intros St I ds cap0 alloc limit T E p k adm s0 st out fuel w st' r w' Ho Hh Ha Hw Hk H. destruct (@growing_new I cap0 alloc limit) as (Hi & Hv & _).
  destruct (history_inv growing_queue Ho Hi Hv Hh) as (Hi' & _).
  eapply (@runs_bound St I _ ds _ _ _ _ _ growing_queue Ho); eauto. intros d _. apply Hk.
Qed.
Print Assumptions C68_growing.

(** And there is an answer after at most [k + 1] calls, plus one for each failing read. *)
Theorem C68_fixed_answers : forall St I (ds : data_source St I) R size b0 T E (p : parser I T E) k adm s0 data e0 st out w,
  fixed_with_size size = Done b0 -> obeys ds -> delivers ds R -> R s0 data e0 ->
  history ds (fixed_ops I) adm s0 b0 st out -> src_auto st = true ->
  well_behaved p -> (forall i, p i <> Panic) -> (forall i, p i <> NoFuel) -> (forall b, asks_at_most k p b) ->
  exists st' r w', insist_w ds (fixed_ops I) (k + 1 + e0) (counted p) st w = (Done (st', r), w') /\ w' <= w + k + 1.
Proof.
  intros St I ds R size b0 T E p k adm s0 data e0 st out w Hn Ho HR Hs Hh Ha Hw Hnp Hnf Hk. destruct (fixed_fresh I size b0 Hn) as (_ & Hi & Hv).
  destruct (history_delivers (fixed_queue size) Ho HR _ _ Hi Hv Hh Hs) as (d & e & G1 & G2 & G3 & G4).
  destruct (@runs_enough St I _ ds _ _ _ _ _ (fixed_queue size) Ho R HR T E p Hw Hnp Hnf (k + 1 + e0) k st w d e G4 Ha (fun d _ => Hk _) G1 ltac:(lia)) as (st' & r & w' & H).
  exists st', r, w'. split; [assumption|]. eapply C68_fixed; eauto.
Qed.
Print Assumptions C68_fixed_answers.
Theorem C68_growing_answers : forall St I (ds : data_source St I) R cap0 alloc limit T E (p : parser I T E) k adm s0 data e0 st out w,
  obeys ds -> delivers ds R -> R s0 data e0 ->
  history ds (growing_ops I) adm s0 (growing_with_limit cap0 alloc limit) st out -> src_auto st = true ->
  well_behaved p -> (forall i, p i <> Panic) -> (forall i, p i <> NoFuel) -> (forall b, asks_at_most k p b) ->
  exists st' r w', insist_w ds (growing_ops I) (k + 1 + e0) (counted p) st w = (Done (st', r), w') /\ w' <= w + k + 1.
Proof.
  intros St I ds R cap0 alloc limit T E p k adm s0 data e0 st out w Ho HR Hs Hh Ha Hw Hnp Hnf Hk. destruct (@growing_new I cap0 alloc limit) as (Hi & Hv & _).
  destruct (history_delivers growing_queue Ho HR _ _ Hi Hv Hh Hs) as (d & e & G1 & G2 & G3 & G4).
  destruct (@runs_enough St I _ ds _ _ _ _ _ growing_queue Ho R HR T E p Hw Hnp Hnf (k + 1 + e0) k st w d e G4 Ha (fun d _ => Hk _) G1 ltac:(lia)) as (st' & r & w' & H).
  exists st', r, w'. split; [assumption|]. eapply C68_growing; eauto.
Qed.
Print Assumptions C68_growing_answers.

(** The bound is met for every [k]: [k] items one by one, the first attempt being made on nothing. *)
Theorem C68_met : forall I alloc (c : I) data,
  let st := src_set_autofill true (src_reset (src_with_buffer (List.map (fun c => Some [c]) (c :: data)) (growing_with_limit 0 alloc 0))) in
  let k := length (c :: data) in
  sized k (@row_of I k) /\ exists fuel st', insist_w (read_data_source chunk_read) (growing_ops I) fuel (counted (row_of k)) st 0 = (Done (st', inl tt), k + 1).
Proof.
  intros I alloc c data st k. split; [apply items_sized|]. destruct (@growing_new I 0 alloc 0) as (Hi & Hv & _).
  assert (Hi0 : growing_inv0 (growing_with_limit (I := I) 0 alloc 0)) by (repeat split; auto; try apply Hi).
  destruct (@items_met I _ _ _ _ _ growing_queue0 data c (S (length data)) (growing_with_limit 0 alloc 0) 1 false 1 (le_n _) Hi0) as (st' & H1).
  { rewrite Hv. reflexivity. }
  exists (S (S (length data))), st'. rewrite Hv in H1. cbn [length Nat.add] in H1. unfold one_by_one in H1.
  change st with (mkSrc (List.map (fun c => Some [c]) (c :: data)) (growing_with_limit (I := I) 0 alloc 0) 0 false false true).
  cbn [insist_w]. unfold src_parse_w at 1. cbn [src_incomplete andb].
  unfold src_is_empty. cbn [src_eoi src_buffer]. rewrite (q_deref growing_queue _ Hi), Hv. unfold counted at 1. rewrite items_char.
  rewrite (q_len growing_queue _ Hi), Hv. cbn [length Nat.ltb Nat.leb run_bind Nat.add src_source src_buffer src_auto src_eoi].
  unfold k. cbn [length]. cbn [length List.map] in H1 |- *.
  etransitivity; [exact H1|]. f_equal. cbn. lia.
Qed.
Print Assumptions C68_met.

(** Two fields and a length between them, read one by one with a fault in the middle: three requests, four runs (the bound is four). *)
Example C68_case_stream : exists st', insist_w demo_source (growing_ops nat) 9
    (counted (fun i => bind (fun e => e) (take 2 i) (fun i _ => bind (fun e => e) (any i) (fun i n => take n i))))
    (src_with_buffer [Some [1]; Some [2]; Some [3]; None; Some [4]; Some [5]; Some [6]; Some [7]] (growing_with_limit 0 (fun _ => 0) 0)) 0 =
  (Done (st', inl [4; 5; 6]), 4) /\ src_view (growing_ops nat) st' = Done [].
Proof. eexists. split; vm_compute; reflexivity. Qed.
Example C68_case_history : exists adm st, history demo_source (growing_ops nat) adm [Some [1]; None; Some [2]] (growing_with_limit 0 (fun _ => 0) 3) st [] /\
  src_auto st = true /\ src_incomplete st = false.
Proof.
  exists (fun _ _ _ => True). eexists. split; [eapply h_fill; [apply h_new|vm_compute; reflexivity]|split; reflexivity].
Qed.
