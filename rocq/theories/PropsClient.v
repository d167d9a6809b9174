(** Property theorems C65: [Input] is linear. *)
From Coq Require Import List Bool Arith Lia.
From Verif Require Import Base Parsers Combinators Buffer Stream Word Effects SpecBase SpecSafe SafeProofs Client SpecClient LinearProofs ClientProofs.
Import ListNotations.

Set Implicit Arguments.

(** * A client cannot forge *)

(** Whatever a client does with the public interface short of [Input::new] and of exchanging the inputs of a parser and one nested in it, its parsers
    leave a suffix of their input and its mode alone, blame a suffix of it, or ask for more.  The bodies of closures may depend on and change
    shared memory, run any parser on any slice, drop what they hold, panic. *)
Lemma linear_fine : forall I T E M (c : client I T E M) m i, forges_nothing c ->
  fine (fun n => n = 0) (fun n => n <= 1) (fun j => last j = last i /\ suffix (buf j) (buf i)) (fun b => suffix b (buf i))
    (act c (hold_put (HIn i) (mkHold [] 0 m))).
Proof.
  intros I T E M c m i H. apply act_fine with (O := fun _ => False) (cap := False); try tauto; try lia.
  - split; cbn.
    + intros j [_ Hj]. exact Hj.
    + intros j k [Hl Hs] H1 H2. split; [congruence|eapply suffix_trans; eauto].
    + intros j b [_ Hs] Hb. eapply suffix_trans; eauto.
  - unfold alive. cbn. split; [lia|]. split; [|lia]. constructor; [|constructor]. cbn. split; [reflexivity|exists []; reflexivity].
Qed.

Theorem C65_linear : forall I T E M (c : client I T E M) m, forges_nothing c -> well_behaved (as_parser c m).
Proof.
  intros I T E M c m H i. pose proof (linear_fine _ m i H) as Hf. unfold fine, keeps in Hf. unfold as_parser, honest.
  destruct (fst (act c (hold_put (HIn i) (mkHold [] 0 m)))); tauto.
Qed.
Print Assumptions C65_linear.

(** Nor duplicate: no scope ever holds more than one input or result, not even on the way to a panic; and when the parser has returned, nothing is left. *)
Theorem C65_one : forall I T E M (c : client I T E M) m i, forges_nothing c ->
  peak (as_parser_left c m i) <= 1 /\
  (as_parser c m i <> Panic -> as_parser c m i <> NoFuel -> hand (as_parser_left c m i) = []).
Proof.
  intros I T E M c m i H. pose proof (linear_fine _ m i H) as Hf. unfold fine, keeps in Hf. unfold as_parser, as_parser_left.
  destruct (fst (act c (hold_put (HIn i) (mkHold [] 0 m)))); unfold ok, okp in Hf; cbn in Hf.
  1-3: destruct Hf as (_ & H1 & _ & H2); split; [assumption|]; intros _ _; apply length_zero_iff_nil; exact H1.
  1-2: split; [exact Hf|congruence].
Qed.
Print Assumptions C65_one.

(** On a stream such a parser never makes the arithmetic of [parse] panic: if the call panics, the parser did. *)
Theorem C65_stream : forall I T E M (c : client I T E M) m (s : slice_stream I), forges_nothing c -> ss_pos s <= length (ss_slice s) ->
  slice_parse (as_parser c m) s = Panicked -> as_parser c m (mkInput true (skipn (ss_pos s) (ss_slice s))) = Panic.
Proof.
  intros I T E M c m s H Hs Hp. pose proof (C65_linear _ m H (mkInput true (skipn (ss_pos s) (ss_slice s)))) as Hh.
  unfold slice_parse, slice_is_empty, slice_len, usize_sub in Hp. apply Nat.leb_le in Hs. rewrite Hs in Hp. cbn [run_bind] in Hp.
  match type of Hp with (if ?b then _ else _) = _ => destruct b; [discriminate|] end.
  destruct (as_parser c m _) as [j t|b e|n| |]; cbn [run_bind] in Hp; try discriminate; try reflexivity; exfalso.
  - destruct Hh as [_ [pre Hh]]. cbn [buf] in Hh. apply (f_equal (@length I)) in Hh. rewrite skipn_length, app_length in Hh.
    match type of Hp with context [if ?b then _ else _] => replace b with true in Hp; [discriminate|] end. symmetry. apply Nat.leb_le. lia.
  - destruct Hh as [pre Hh]. cbn [buf] in Hh. apply (f_equal (@length I)) in Hh. rewrite skipn_length, app_length in Hh.
    match type of Hp with context [if ?b then _ else _] => replace b with true in Hp; [discriminate|] end. symmetry. apply Nat.leb_le. lia.
Qed.
Print Assumptions C65_stream.

(** * Clients which forge *)

(** All that a client can return comes from its input or from those it made itself. *)
Theorem C65_stems : forall I T E M (O : input I -> Prop) cap (c : client I T E M) m i, uses O cap c -> stems O i (as_parser c m i).
Proof.
  intros I T E M O cap c m i H.
  assert (Hf : fine (fun n => True) (fun n => True) (fun j => exists o, (o = i \/ O o) /\ last j = last o /\ suffix (buf j) (buf o))
                 (fun b => exists o, (o = i \/ O o) /\ suffix b (buf o)) (act c (hold_put (HIn i) (mkHold [] 0 m)))).
  { apply act_fine with (O := O) (cap := cap); auto.
    - split; cbn.
      + intros j (o & Ho & _ & Hj). eauto.
      + intros j k (o & Ho & Hl & Hs) H1 H2. exists o. split; [assumption|]. split; [congruence|eapply suffix_trans; eauto].
      + intros j b (o & Ho & Hl & Hs) Hb. exists o. split; [assumption|]. eapply suffix_trans; eauto.
    - intros o Ho. exists o. split; [auto|]. split; [reflexivity|exists []; reflexivity].
    - unfold alive. cbn. split; [auto|]. split; [|auto]. constructor; [|constructor]. cbn. exists i. split; [auto|]. split; [reflexivity|exists []; reflexivity]. }
  unfold fine, keeps in Hf. unfold as_parser, stems. destruct (fst (act c (hold_put (HIn i) (mkHold [] 0 m)))); tauto.
Qed.
Print Assumptions C65_stems.

(** Only the iterating combinators (and parsers written otherwise) can loop: without them every call returns, be it with a panic, and leaves only results
    that have returned. *)
Theorem C65_returns : forall I T E M (c : client I T E M) m i, loopless c -> as_parser c m i <> NoFuel /\ ~ In (HRes NoFuel) (hand (as_parser_left c m i)).
Proof.
  intros I T E M c m i H. assert (Hw : sound_hold (hold_put (HIn i) (mkHold (I := I) (T := T) (E := E) [] 0 m))) by (constructor; [exact Logic.I|constructor]).
  destruct (act_returns c H Hw) as [H1 H2]. split; [exact H1|]. intros Hin. unfold sound_hold in H2. rewrite Forall_forall in H2. exact (H2 _ Hin).
Qed.
Print Assumptions C65_returns.

(** With [Input::new] a parser need not be honest, as the documentation of that function (deprecated) concedes: *)
Definition renew {I T E M} (s : list I) (t : T) : client I T E M := DoDrop 0 (DoFresh (mkInput true s) (DoRet 0 t (DoGive 0))).
Theorem C65_new_refuted : forall I T E M (x : I) (t : T), exists c : client I T E M, uses (fun o => o = mkInput true [x]) False c /\
  forall m, ~ well_behaved (as_parser c m).
Proof.
  intros I T E M x t. exists (renew [x] t). split; [cbn; auto|]. intros m H. specialize (H (mkInput false [])). cbn in H. destruct H. discriminate.
Qed.
Print Assumptions C65_new_refuted.

(** Nor with [parse_only] alone: [|i1| { let mut o = None; let _ = parse_only(|i2| { o = Some(i2); i1.ret(t) }, s); o.unwrap().ret(t) }], of which
    the compiler does not complain, nothing relating the input of a parser to the one of its result but their lifetime. *)
Definition exchange {I T E M} (s : list I) (t : T) : client I T E M :=
  DoOnly s true (DoRet 1 t (DoGive 0)) (fun _ => DoRet 0 t (DoGive 0)).
Theorem C65_exchange_refuted : forall I T E M (s : list I) (t : T),
  uses (E := E) (M := M) (fun o => o = mkInput true s) True (exchange s t) /\
  (forall m i, as_parser (E := E) (M := M) (exchange s t) m i = Data (mkInput true s) t) /\
  forall m, ~ well_behaved (as_parser (E := E) (M := M) (exchange s t) m).
Proof.
  intros I T E M s t. split; [|split].
  - cbn. auto.
  - intros m i. reflexivity.
  - intros m H. specialize (H (mkInput false [])). cbn in H. destruct H. discriminate.
Qed.
Print Assumptions C65_exchange_refuted.

(** What that does to a [SliceStream] on which some items have been parsed: a debug build panics in the arithmetic of [parse] though the parser
    did not; a release build goes back to the first item, at every call, so that a loop which parses until the end of the input never ends. *)
Theorem C65_exchange_stream : forall I T E M (w : machine) m (t : T) (s : list I) pos, 0 < pos -> pos < length s -> length s < w_size w ->
  w_slice_parse w (as_parser (E := E) (M := M) (exchange s t) m) (mkSliceStream pos s) =
  if w_debug w then Panicked else Done (mkSliceStream 0 s, inl t).
Proof.
  intros I T E M w m t s pos H0 H1 H2. unfold w_slice_parse, w_slice_len, w_sub. cbn [ss_slice ss_pos].
  destruct (Nat.leb_spec pos (length s)) as [_|H]; [|lia]. cbn [run_bind]. destruct (Nat.eqb_spec (length s - pos) 0) as [H|_]; [lia|].
  unfold assert. cbn [run_bind]. destruct (proj2 (C65_exchange_refuted E M s t)) as [Hx _]. rewrite Hx. cbn [buf].
  destruct (Nat.leb_spec (length s) (length s - pos)) as [H|_]; [lia|]. destruct (w_debug w) eqn:Hd; [reflexivity|]. cbn [run_bind].
  unfold w_add. rewrite Hd. destruct (Nat.ltb_spec (pos + (length s - pos + w_size w - length s)) (w_size w)) as [H|_]; [lia|]. cbn [run_bind].
  replace (pos + (length s - pos + w_size w - length s)) with (w_size w) by lia. rewrite Nat.mod_same by lia. reflexivity.
Qed.
Print Assumptions C65_exchange_stream.

(** * Cases *)

(** A client with closures which count in shared memory, backtrack, look at a slice of their own with [parse_only], repeat and bind. *)
Definition C65_client : client nat nat (error nat) nat :=
  DoOr 0 (DoUse 0 (token false Nat.eqb 5) (DoLook (fun n => DoStore (n + 1) (DoBind 0 (fun t => DoUse 0 (token false Nat.eqb (t + 1)) (DoGive 0)) (DoGive 0)))))
    (DoLook (fun n => DoOnly [n; 8] false (DoUse 0 any (DoGive 0))
      (fun x => match x with
                | inl v => DoMany 0 (mkCollector (0, false) (fun c => if snd c then CFinish (fst c) else
                                       CNext (fun o => match o with Some u => (fst c + u, false) | None => (fst c, true) end))) 9 RFull
                             (DoUse 0 (satisfy false (fun u => Nat.ltb v u)) (DoGive 0)) (DoGive 0)
                | inr _ => DoPanic
                end)))
  (DoGive 0).
Example C65_case : forges_nothing C65_client.
Proof.
  unfold forges_nothing, C65_client. cbn. repeat split; auto; try (intros; repeat split); try apply b_token; try discriminate; try apply b_any.
  destruct x; cbn; repeat split; auto. apply b_satisfy.
Qed.
Example C65_case_runs : as_parser C65_client 0 (mkInput true [5; 7; 2; 1; 9]) = Data (mkInput true [1; 9]) 14 /\
  as_parser C65_client 0 (mkInput false [5; 6; 1]) = Data (mkInput false [1]) 6.
Proof. split; vm_compute; reflexivity. Qed.
(** The hypotheses of the refutation on a stream: a release build of a machine with bytes for words. *)
Example C65_case_stream : w_slice_parse (mkMachine 256 false 100) (as_parser (E := unit) (M := unit) (exchange [1; 2; 3] 9) tt) (mkSliceStream 2 [1; 2; 3]) =
  Done (mkSliceStream 0 [1; 2; 3], inl 9).
Proof. apply (@C65_exchange_stream nat nat unit unit (mkMachine 256 false 100)); [cbn; lia|cbn; lia|]. apply Nat.ltb_lt. reflexivity. Qed.
(** Without the loop: drops what it has, then misses it. *)
Definition C65_careless : client nat nat (error nat) nat :=
  DoOption 0 (DoUse 0 (token false Nat.eqb 5) (DoBind 0 (fun t => DoDrop 0 (DoRet 0 t (DoGive 0))) (DoGive 0))) 3 (DoGive 0).
Example C65_case_returns : loopless C65_careless /\ as_parser C65_careless 0 (mkInput true [5; 1]) = Panic /\ as_parser C65_careless 0 (mkInput true [4; 1]) = Data (mkInput true [4; 1]) 3.
Proof.
  split; [|split; reflexivity]. unfold C65_careless. cbn [loopless]. repeat split. intros [l [|x b]]; unfold token; cbn [buf first]; [discriminate|]. destruct (Nat.eqb 5 x); discriminate.
Qed.
