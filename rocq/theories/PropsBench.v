(** Property C57: the benchmarks do the work they are there to measure. *)
From Coq Require Import List Bool Arith Lia.
From Coq.Init Require Import Byte.
From Coq.Strings Require Import Byte String.
From Verif Require Import Base Parsers Combinators Buffer Stream SpecBase SpecIter SpecSep SpecSafe IterProofs ManyProofs SkipProofs SepProofs TermProofs CountProofs PropsIter Http SpecHttp HttpProofs
  PropsHttp Bench.
Import ListNotations.
Local Open Scope list_scope.
Local Notation length := List.length.
Local Notation concat := List.concat.

(** * Repetition of a parser which consumes *)
Lemma any_iterates : forall I (b r : list I) l, iterates (pure any) tt (mkInput l (b ++ r)) b tt (mkInput l r).
Proof. intros I b r l. induction b as [|x b IH]; [constructor|]. econstructor; [reflexivity|exact IH]. Qed.
Lemma any_returns : forall I, returns (pure (@any I)).
Proof. intros I s [l [|x b]] s' H; discriminate. Qed.
Lemma any_consuming : forall I, consuming (pure (@any I)).
Proof. intros I s [l [|x b]] j u s' H; inversion H; subst. cbn. lia. Qed.
Lemma bmany_is : forall St I U E (p : sparser St I U E) fuel r s0 i res, returns p -> consuming p -> nonempty r -> length (buf i) + 2 <= fuel ->
  many_outcome r p s0 i res -> bmany fuel (vec_collector U) r s0 p i = res.
Proof.
  intros St I U E p fuel r s0 i res Hr Hc Hn Hf H. eapply many_outcome_det; [|exact H]. eapply bmany_sound; [exact Hn|reflexivity|].
  apply bmany_terminates; assumption.
Qed.

Lemma bench_data : forall I T E (p : parser I T E) data j v, data <> [] -> p (mkInput true data) = Data j v -> length (buf j) <= length data ->
  bench p data = Done (mkSliceStream (length data - length (buf j)) data, inl v).
Proof.
  intros I T E p data j v Hd Hp Hj. unfold bench, slice_parse, slice_is_empty, slice_len, slice_new, usize_sub. cbn [ss_pos ss_slice skipn].
  rewrite Nat.sub_0_r. cbn [Nat.leb run_bind]. destruct (Nat.eqb_spec (length data) 0) as [E0|_]; [destruct data; [congruence|discriminate]|].
  rewrite Hp. apply Nat.leb_le in Hj. rewrite Hj. reflexivity.
Qed.

(** * combinators.rs *)

(** [count] takes as many as it should, of whatever data. *)
Theorem C57_count : forall I (data : list I) n fuel, data <> [] -> n <= length data -> length data + 2 <= fuel ->
  bench (count_vec fuel n) data = Done (mkSliceStream n data, inl (firstn n data)).
Proof.
  intros I data n fuel Hd Hn Hf.
  assert (Hr : count_vec fuel n (mkInput true data) = Data (mkInput true (skipn n data)) (firstn n data)).
  { unfold count_vec, count. apply bmany_is; [apply any_returns|apply any_consuming|exists n; reflexivity|exact Hf|].
    rewrite <- (firstn_skipn n data) at 1. eapply mo_data; [apply any_iterates|cbn [in_range]; rewrite firstn_length; lia|].
    left. intros (k & Hk & Hi). cbn [in_range] in Hi. rewrite firstn_length in Hk. lia. }
  rewrite (bench_data _ _ _ _ _ _ _ Hd Hr); cbn [buf]; rewrite skipn_length; [|lia]. replace (length data - (length data - n)) with n by lia. reflexivity.
Qed.
(** The benchmarks have as much data as they count. *)
Theorem C57_count_all : forall I (data : list I) fuel, data <> [] -> length data + 2 <= fuel ->
  bench (count_vec fuel (length data)) data = Done (mkSliceStream (length data) data, inl data).
Proof. intros I data fuel Hd Hf. rewrite C57_count by (auto; lia). rewrite firstn_all. reflexivity. Qed.
(** With less data nothing would be consumed. *)
Theorem C57_count_short : forall I (data : list I) n fuel, data <> [] -> length data < n -> length data + 2 <= fuel ->
  bench (count_vec fuel n) data = Done (slice_new data, inr (SIncomplete (1 + length data))).
Proof.
  intros I data n fuel Hd Hn Hf.
  assert (Hr : count_vec fuel n (mkInput true data) = Incomplete 1).
  { unfold count_vec, count. apply bmany_is; [apply any_returns|apply any_consuming|exists n; reflexivity|exact Hf|].
    rewrite <- (app_nil_r data) at 1. eapply mo_incomplete; [apply any_iterates| |reflexivity|].
    - exists n. split; [exact Hn|reflexivity].
    - left. cbn [in_range]. lia. }
  unfold bench, slice_parse, slice_is_empty, slice_len, slice_new, usize_sub. cbn [ss_pos ss_slice skipn].
  rewrite Nat.sub_0_r. cbn [Nat.leb run_bind]. destruct (Nat.eqb_spec (length data) 0) as [E0|_]; [destruct data; [congruence|discriminate]|].
  rewrite Hr. reflexivity.
Qed.
Theorem C57_many : forall I (data : list I) fuel, data <> [] -> length data + 2 <= fuel ->
  bench (many_vec fuel) data = Done (mkSliceStream (length data) data, inl data) /\
  bench (many1_vec fuel) data = Done (mkSliceStream (length data) data, inl data).
Proof.
  intros I data fuel Hd Hf.
  assert (Hr : forall r, nonempty r -> in_range r (length data) -> bmany fuel (vec_collector I) r tt (pure any) (mkInput true data) = Data (mkInput true []) data).
  { intros r Hr Hi. apply bmany_is; [apply any_returns|apply any_consuming|exact Hr|exact Hf|].
    rewrite <- (app_nil_r data) at 1. eapply mo_data; [apply any_iterates|exact Hi|]. right. right. exists 1. split; reflexivity. }
  split.
  - assert (H : many_vec fuel (mkInput true data) = Data (mkInput true []) data) by (apply Hr; [exists 0|]; exact Logic.I).
    rewrite (bench_data _ _ _ _ _ _ _ Hd H); cbn [buf length]; [|lia]. rewrite Nat.sub_0_r. reflexivity.
  - assert (H : many1_vec fuel (mkInput true data) = Data (mkInput true []) data).
    { apply Hr; [exists 1; apply le_n|]. destruct data; [congruence|]. cbn. lia. }
    rewrite (bench_data _ _ _ _ _ _ _ Hd H); cbn [buf length]; [|lia]. rewrite Nat.sub_0_r. reflexivity.
Qed.
(** Without data no parser is run. *)
Theorem C57_no_data : forall I T E (p : parser I T E), bench p [] = Done (slice_new [], inr SEndOfInput).
Proof. reflexivity. Qed.
Print Assumptions C57_count.
Print Assumptions C57_count_all.
Print Assumptions C57_count_short.
Print Assumptions C57_many.
Print Assumptions C57_no_data.
(** benches/combinators.rs:12-20, 38-46 with their 1024 bytes. *)
Example C57_case : let data := repeat "a"%byte 1024 in data <> [] /\ length data + 2 <= 1026 /\
  bench (count_vec 1026 1024) data = Done (mkSliceStream 1024 data, inl data) /\ bench (many_vec 1026) data = Done (mkSliceStream 1024 data, inl data).
Proof.
  assert (Hl : length (repeat "a"%byte 1024) = 1024) by apply repeat_length.
  assert (Hd : repeat "a"%byte 1024 <> []) by discriminate. intros data. subst data. split; [exact Hd|]. split; [rewrite Hl; lia|].
  pose proof (C57_count_all _ _ 1026 Hd) as H1. pose proof (C57_many _ _ 1026 Hd) as H2. rewrite Hl in H1, H2.
  split; [apply H1; lia|]. apply H2. lia.
Qed.

(** * http_bench.rs *)

(** A request, followed by anything, is parsed and consumed, the rest is left. *)
Theorem C57_single : forall verbose w q rest, message w q ->
  bench (request verbose) (w ++ rest) = Done (mkSliceStream (length w) (w ++ rest), inl q).
Proof.
  intros verbose w q rest H. assert (Hw : w <> []).
  { intros ->. destruct (C41_prefix verbose [] [] q) as [n _]; [exact H| |]; auto.
    all: pose proof (C41_accepts verbose [] q H false []) as Ha; discriminate Ha. }
  rewrite (bench_data _ _ _ (request verbose) (w ++ rest) (mkInput true rest) q); [| |apply C41_accepts; exact H|cbn [buf]; rewrite app_length; lia].
  - cbn [buf]. rewrite app_length. replace (length w + length rest - length rest) with (length w) by lia. reflexivity.
  - destruct w; [congruence|discriminate].
Qed.
Lemma request_returns : forall verbose, returns (pure (request verbose)).
Proof. intros verbose s i s' H. inversion H. destruct (C41_total verbose i). congruence. Qed.
Lemma message_nonempty : forall w q, message w q -> w <> [].
Proof. intros w q H ->. pose proof (C41_accepts true [] q H false []) as Ha. discriminate Ha. Qed.
Lemma request_consuming : forall verbose, consuming (pure (request verbose)).
Proof.
  intros verbose s i j u s' H. inversion H as [H']. clear H. apply C41_only in H'. destruct H' as (_ & w & Hw & E). rewrite E, app_length.
  pose proof (message_nonempty _ _ Hw). destruct w; [congruence|]. cbn. lia.
Qed.
Lemma request_iterates : forall verbose ws qs rest l, Forall2 message ws qs ->
  iterates (pure (request verbose)) tt (mkInput l (concat ws ++ rest)) qs tt (mkInput l rest).
Proof.
  intros verbose ws qs rest l H. induction H as [|w q ws qs Hw H IH]; [constructor|]. econstructor; [|exact IH].
  unfold pure. cbn [concat]. rewrite <- app_assoc. rewrite (C41_accepts verbose w q Hw). reflexivity.
Qed.
Lemma iterates_request : forall verbose i qs s j, iterates (pure (request verbose)) tt i qs s j ->
  last j = last i /\ exists ws, Forall2 message ws qs /\ buf i = concat ws ++ buf j.
Proof.
  intros verbose i qs s j H. induction H as [s i|s i u s1 i1 us s2 i2 Hp H (IHl & ws & IHw & IHb)].
  - split; [reflexivity|]. exists []. split; [constructor|reflexivity].
  - inversion Hp as [[Hp' Hs]]. apply C41_only in Hp'. destruct Hp' as (Hl & w & Hw & Eb). split; [congruence|].
    exists (w :: ws). split; [constructor; assumption|]. rewrite Eb, IHb. cbn [concat]. rewrite app_assoc. reflexivity.
Qed.
(** [many(request)] never fails: it gives the requests at the front of the data, leaving what is no request, and says nothing about it. *)
Theorem C57_many_requests : forall verbose data fuel, data <> [] -> length data + 2 <= fuel ->
  exists ws qs rest, data = concat ws ++ rest /\ Forall2 message ws qs /\ (forall w q r, message w q -> rest <> w ++ r) /\
    bench (many_requests verbose fuel) data = Done (mkSliceStream (length (concat ws)) data, inl qs).
Proof.
  intros verbose data fuel Hd Hf.
  assert (Hs : many_outcome RFull (pure (request verbose)) tt (mkInput true data) (many_requests verbose fuel (mkInput true data))).
  { eapply bmany_sound; [exists 0; exact Logic.I|reflexivity|]. apply bmany_terminates; [apply request_returns|apply request_consuming|exact Hf]. }
  remember (many_requests verbose fuel (mkInput true data)) as res eqn:Er. destruct Hs as [us s j Hi _ Hg|us s j b e Hi Hn|us s j n Hi Hm Hp Hg|us s j Hi Hm Hp].
  - destruct (iterates_request _ _ _ _ _ Hi) as (Hl & ws & Hw & Eb). cbn [last buf] in *. exists ws, us, (buf j). split; [exact Eb|]. split; [exact Hw|]. split.
    + intros w q r Hm E. assert (Hj : request verbose j = Data (mkInput true r) q).
      { destruct j as [lj bj]. cbn [last buf] in *. subst. apply C41_accepts. exact Hm. }
      unfold gives_up, pure in Hg. cbn [fst] in Hg. rewrite Hj in Hg. destruct Hg as [Hg|[(? & ? & Hg)|(? & Hg & _)]]; try discriminate.
      apply Hg. exists (S (length us)). split; [lia|exact Logic.I].
    + rewrite (bench_data _ _ _ _ _ _ _ Hd (eq_sym Er)); [|rewrite Eb, app_length; lia]. rewrite Eb at 1. rewrite app_length.
      replace (length (concat ws) + length (buf j) - length (buf j)) with (length (concat ws)) by lia. reflexivity.
  - exfalso. apply Hn. exact Logic.I.
  - exfalso. destruct (iterates_request _ _ _ _ _ Hi) as (Hl & _). cbn [last] in Hl. destruct Hg as [Hg|Hg]; [apply Hg; exact Logic.I|congruence].
  - exfalso. cbn [pure fst] in Hp. destruct (C41_total verbose j). congruence.
Qed.
(** All of them, if there is nothing else. *)
Theorem C57_all_requests : forall verbose ws qs fuel, ws <> [] -> Forall2 message ws qs -> length (concat ws) + 2 <= fuel ->
  bench (many_requests verbose fuel) (concat ws) = Done (mkSliceStream (length (concat ws)) (concat ws), inl qs).
Proof.
  intros verbose ws qs fuel Hne Hw Hf. assert (Hd : concat ws <> []).
  { destruct Hw as [|w q ws qs Hm Hw]; [congruence|]. apply message_nonempty in Hm. cbn. destruct w; [congruence|discriminate]. }
  assert (Hr : many_requests verbose fuel (mkInput true (concat ws)) = Data (mkInput true []) qs).
  { unfold many_requests, many. apply bmany_is; [apply request_returns|apply request_consuming|exists 0; exact Logic.I|exact Hf|].
    rewrite <- (app_nil_r (concat ws)) at 1. eapply mo_data; [apply request_iterates; exact Hw|exact Logic.I|]. right.
    unfold gives_up, pure. cbn [fst]. destruct (request verbose (mkInput true [])) as [j q|b e|n| |] eqn:Er.
    - exfalso. apply C41_only in Er. destruct Er as (_ & w & Hm & E). apply message_nonempty in Hm. cbn in E. destruct w; [congruence|discriminate].
    - left. eauto.
    - right. eauto.
    - exfalso. destruct (C41_total verbose (mkInput true [])). congruence.
    - exfalso. destruct (C41_total verbose (mkInput true [])). congruence. }
  rewrite (bench_data _ _ _ _ _ _ _ Hd Hr); cbn [buf length]; [|lia]. rewrite Nat.sub_0_r. reflexivity.
Qed.
Print Assumptions C57_single.
Print Assumptions C57_many_requests.
Print Assumptions C57_all_requests.

(** benches/http_bench.rs:135-143, [single_request_minimal]: the [\r] at the end of the literal is left over. *)
Definition minimal : list byte := String.list_byte_of_string "GET / HTTP/1.1"%string ++ [x0d; x0a] ++ String.list_byte_of_string "Host: localhost"%string ++ [x0d; x0a; x0d; x0a].
Example C57_minimal : exists q, message minimal q /\ bench (request true) (minimal ++ [x0d]) = Done (mkSliceStream (length minimal) (minimal ++ [x0d]), inl q) /\
  bench (many_requests true 100) (minimal ++ minimal ++ [x0d]) = Done (mkSliceStream (2 * length minimal) (minimal ++ minimal ++ [x0d]), inl [q; q]).
Proof.
  assert (H : exists q, request true (mkInput true (minimal ++ [])) = Data (mkInput true []) q) by (eexists; vm_compute; reflexivity).
  destruct H as [q H]. exists q. pose proof (C41_only _ _ _ _ H) as (_ & w & Hw & E). cbn [buf] in E. rewrite !app_nil_r in E. subst w.
  split; [exact Hw|]. split; [apply C57_single; exact Hw|]. vm_compute in H. inversion H. vm_compute. reflexivity.
Qed.
