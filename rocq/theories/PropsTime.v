(** Property theorems C74: parsers for LL(1) grammars take linear time. *)
From Coq Require Import List Bool Arith Lia.
From Verif Require Import Base Parsers Combinators SpecBase BaseProofs SpecLaws Effects SpecEffects SpecPeg Peg PegProofs PegTotal PropsPeg SpecBnf BnfProofs PropsBnf PegMeter TimeProofs Ll1Linear.
Import ListNotations.

Set Implicit Arguments.

(** Counting does not disturb: the results are those of the parsers of C70. *)
Theorem C74_undisturbed : forall I v eqb (g : nat -> peg I) fuel e n i, fst (peg_meter v eqb g fuel e n i) = peg_parser v eqb g fuel e i.
Proof. intros I v eqb g fuel e n i. apply undisturbed. Qed.
Print Assumptions C74_undisturbed.

(** The count is not too low: every closure called counts, and every item consumed has been shown to a predicate or to [PartialEq]. *)
Theorem C74_counted : forall I v eqb (g : nat -> peg I) fuel e n i res n', peg_meter v eqb g fuel e n i = (res, n') -> res <> NoFuel ->
  n < n' /\ forall j t, res = Data j t -> length (buf i) <= length (buf j) + (n' - n).
Proof.
  intros I v eqb g fuel e n i res n' H Hn. destruct (@meter_pays I v eqb g fuel e n i res n' H Hn) as [L [L1 L2]]. split; [assumption|]. intros j t E. specialize (L2 _ _ E). lia.
Qed.
Print Assumptions C74_counted.

(** An LL(1) grammar of finitely many rules: at most [A] calls per item of the buffer, whatever it contains, whether or not more may come.  Where a phrase is
    found in front of what may follow it, at most [A] per item of the phrase, whatever comes behind. *)
Theorem C74_linear : forall I eqb nul rank follow k (g : nat -> peg I) N F e, ll1_grammar eqb nul rank follow k g -> (forall n, N <= n -> g n = Empty) ->
  ll1 eqb g nul follow F e -> good nul rank None e ->
  exists A, forall v fuel n l s res n', peg_meter v eqb g fuel e n (mkInput l s) = (res, n') -> res <> NoFuel ->
    n' <= n + A * (length s + 1) /\
    forall j t, res = Data j t -> follows F (buf j) -> exists x, s = x ++ buf j /\ n' <= n + A * (length x + 1).
Proof.
  intros I eqb nul rank follow k g N F e Hg HN HF He. destruct (bounded g rank HN) as (m & R & Hm & HR).
  pose proof (ll1_rank HN Hg) as Hg'. assert (He' : good nul (rank_in rank N) None e) by (eapply good_rank; eassumption).
  exists (4 * (Nat.max m (weight e) * going m R R)). intros v fuel n l s res n' H Hnf. destruct (@link I v eqb g fuel e n _ res n' H Hnf) as (r & c & C & M & L). cbn [last buf] in *. split.
  - pose proof (@linear_bound I eqb g nul _ follow k Hg' m Hm R HR l (Nat.max m (weight e)) (Nat.le_max_l _ _) _ _ _ _ _ C HF He' (Nat.le_max_r _ _)). lia.
  - intros j t -> Hf. cbn in M. destruct M as [_ ->].
    destruct (@local_bound I eqb g nul _ follow k Hg' m Hm R HR l (Nat.max m (weight e)) (Nat.le_max_l _ _) _ _ _ _ _ _ C HF He' (Nat.le_max_r _ _) Hf) as (x & Ex & Lx).
    exists x. split; [assumption|lia].
Qed.
Print Assumptions C74_linear.

(** Well-formed grammars as such (C71) need not: here the number of calls doubles with every item.  S = 'a' S 'b' / 'a' S 'c' / "". *)
Definition doubling : nat -> peg nat := fun n =>
  match n with
  | 0 => Alt (Then (Sat (Nat.eqb 0)) (Then (Rule 0) (Sat (Nat.eqb 1)))) (Alt (Then (Sat (Nat.eqb 0)) (Then (Rule 0) (Sat (Nat.eqb 2)))) Empty)
  | _ => Empty
  end.

Lemma doubling_cost : forall v m f n, exists n', peg_meter v Nat.eqb doubling (S m + f) (Rule 0) n (mkInput true (repeat 0 m)) = (Data (mkInput true (repeat 0 m)) Nothing, n') /\ n + 2 ^ m <= n'.
Proof.
  intros v. induction m as [|m IH]; intros f n; [destruct f; (eexists; split; [reflexivity|cbn; lia])|].
  assert (Htry : forall x n, exists res n', peg_meter v Nat.eqb doubling (S m + f) (Then (Sat (Nat.eqb 0)) (Then (Rule 0) (Sat (Nat.eqb (S x))))) n (mkInput true (0 :: repeat 0 m)) = (res, n') /\
    n + 2 ^ m <= n' /\ ((exists q, res = Incomplete q) \/ exists b e, res = Error b e)).
  { intros x n0. destruct (IH f (S (S (S (S n0))))) as (n1 & E1 & L1). rewrite meter_eq, meter_eq. unfold satisfy_w, tick. cbn [buf first Nat.eqb ret skipn replace map]. unfold then_w. cbn [bind_w].
    rewrite meter_eq. change (replace (mkInput true (0 :: repeat 0 m)) (repeat 0 m)) with (mkInput true (repeat 0 m)). rewrite E1. unfold then_w. cbn [bind_w]. rewrite meter_eq. unfold satisfy_w, tick.
    destruct m as [|m']; cbn; eexists _, _; (split; [reflexivity|split; [cbn in *; lia|eauto]]). }
  change (S (S m) + f) with (S (S m + f)). cbn [repeat]. rewrite meter_eq. change (doubling 0) with (Alt (Then (Sat (Nat.eqb 0)) (Then (Rule 0) (Sat (Nat.eqb 1))))
    (Alt (Then (Sat (Nat.eqb 0)) (Then (Rule 0) (Sat (Nat.eqb 2)))) (@Empty nat))).
  destruct (Htry 0 (S (S n))) as (r1 & n1 & E1 & L1 & H1). destruct (Htry 1 (S n1)) as (r2 & n2 & E2 & L2 & H2).
  rewrite meter_eq. unfold Effects.or_w. rewrite E1. exists (S n2). split; [|cbn [Nat.pow]; lia].
  destruct H1 as [[q ->]|(b & e & ->)]; cbn [last]; rewrite meter_eq; unfold Effects.or_w; rewrite E2; destruct H2 as [[q' ->]|(b' & e' & ->)]; cbn [last]; reflexivity.
Qed.

Theorem C74_exponential : well_formed (fun _ => true) (fun _ => 0) doubling /\ forall v m fuel n, m < fuel -> exists n',
  peg_meter v Nat.eqb doubling fuel (Rule 0) n (mkInput true (repeat 0 m)) = (Data (mkInput true (repeat 0 m)) Nothing, n') /\ n + 2 ^ m <= n'.
Proof.
  split.
  - intros [|n]; cbn; auto 10.
  - intros v m fuel n H. destruct (doubling_cost v m (fuel - S m) n) as (n' & E & L). replace (S m + (fuel - S m)) with fuel in E by lia. eauto.
Qed.
Print Assumptions C74_exponential.

(** The records of C73. *)
Example C74_case : exists A, forall v s, exists f0, forall fuel, f0 <= fuel -> forall n, let (res, n') := peg_meter v Nat.eqb lists fuel list_record n (mkInput true s) in
  res <> NoFuel /\ n' <= n + A * (length s + 1).
Proof.
  destruct C73_case as (Hg & HF & He & _). destruct (@C74_linear _ _ _ _ _ _ _ 2 _ _ Hg ltac:(intros [|[|n]] H; [lia|lia|reflexivity]) HF He) as (A & HA). exists A. intros v s.
  destruct (proj2 (C71_returns v Nat.eqb list_record (lg_well_formed Hg) He) (mkInput true s)) as (res & _ & Hn & f0 & Hf). exists f0. intros fuel Hle n.
  destruct (peg_meter v Nat.eqb lists fuel list_record n (mkInput true s)) as [r n'] eqn:E. pose proof (C74_undisturbed v Nat.eqb lists fuel list_record n (mkInput true s)) as U.
  rewrite E in U. cbn in U. rewrite (Hf fuel Hle) in U. subst r. split; [assumption|]. apply (HA _ _ _ _ _ _ _ E Hn).
Qed.
(** A record, the same with more behind it, the same without its end while more may come; and six items for the grammar above. *)
Example C74_case_counts : let s := [10; 10; 1; 12; 2; 3; 11; 12; 10; 11; 11] in let count l s := snd (peg_meter true Nat.eqb lists 30 list_record 0 (mkInput l s)) in
  count true (s ++ [13]) = 74 /\ count true (s ++ [13; 1; 2; 3]) = 74 /\ count false s = 73 /\ snd (peg_meter true Nat.eqb doubling 8 (Rule 0) 0 (mkInput true (repeat 0 6))) = 1456.
Proof. vm_compute. repeat split. Qed.
