(** Property theorems C69: numbers read as floats. *)
From Coq Require Import List Bool Arith ZArith Lia.
From Coq.Init Require Import Byte.
From Coq.Strings Require Import Byte String.
From Coq Require Import List.
From Verif Require Import Base Parsers Combinators SpecBase BaseProofs Ascii SpecAscii AsciiProofs PropsAscii Numbers SpecNumbers PropsNumbers Floats SpecFloats FloatProofs.
Import ListNotations.
Open Scope Z_scope.

(** * The arithmetic *)

(** Sums and products are the nearest floats there are, and the only ones that are. *)
Theorem C69_round : forall prec m v, 1 <= prec -> 0 <= m -> (nearest prec m v <-> v = round prec m).
Proof.
  intros prec m v Hp Hm. split.
  - intros H. apply (nearest_unique prec m); [exact H|]. apply round_nearest; assumption.
  - intros ->. apply round_nearest; assumption.
Qed.
Print Assumptions C69_round.

(** The signed value of a finite float. *)
Definition value (neg : bool) (m : Z) : Z := if neg then - m else m.
Theorem C69_ops : forall prec emax s m s' m' t v, 1 <= prec -> 0 <= m -> 0 <= m' ->
  (float_mul prec emax (Fin s m) (Fin s' m') = Fin t v -> nearest prec (Z.abs (value s m * value s' m')) v /\ t = xorb s s' /\ v < 2 ^ emax) /\
  (0 <= emax -> float_add prec emax (Fin s m) (Fin s' m') = Fin t v ->
     nearest prec (Z.abs (value s m + value s' m')) v /\ v < 2 ^ emax /\ (t = true -> value s m + value s' m' <= 0) /\ (t = false -> 0 <= value s m + value s' m')).
Proof.
  intros prec emax s m s' m' t v Hp Hm Hm'.
  assert (Hr : forall neg x, 0 <= x -> rounded prec emax neg x = Fin t v -> nearest prec x v /\ t = neg /\ v < 2 ^ emax).
  { intros neg x Hx. unfold rounded. destruct (Z.leb_spec (2 ^ emax) (round prec x)); [discriminate|]. intros H'. inversion H'; subst. split; [apply round_nearest; assumption|auto]. }
  split.
  - cbn [float_mul]. intros H. apply Hr in H; [|apply Z.mul_nonneg_nonneg; assumption]. replace (Z.abs (value s m * value s' m')) with (m * m'); [exact H|].
    destruct s, s'; unfold value; rewrite ?Z.mul_opp_opp, ?Z.mul_opp_l, ?Z.mul_opp_r, ?Z.abs_opp; symmetry; apply Z.abs_eq; apply Z.mul_nonneg_nonneg; assumption.
  - intros Hem. cbn [float_add]. destruct (Bool.eqb s s') eqn:E.
    + apply eqb_prop in E. subst s'. intros H. apply Hr in H; [|lia]. destruct H as (H & -> & Hb).
      replace (Z.abs (value s m + value s m')) with (m + m') by (destruct s; unfold value; lia). split; [exact H|]. split; [exact Hb|]. split; intros ->; unfold value; lia.
    + apply eqb_false_iff in E. destruct (Z.eqb_spec m m') as [->|N].
      * intros H. inversion H; subst. replace (Z.abs (value s m' + value s' m')) with 0 by (destruct s, s'; unfold value; try congruence; lia).
        split; [|split; [apply Z.pow_pos_nonneg; lia|split; intros; try discriminate; destruct s, s'; unfold value; try congruence; lia]].
        pose proof (round_nearest prec Hp 0 (Z.le_refl 0)) as Hz. rewrite round_small in Hz; [exact Hz|assumption|]. split; [lia|apply Z.pow_pos_nonneg; lia].
      * destruct (Z.ltb_spec m' m); intros H'; (apply Hr in H'; [|lia]); destruct H' as (H' & -> & Hb).
        -- replace (Z.abs (value s m + value s' m')) with (m - m') by (destruct s, s'; unfold value; try congruence; lia). split; [exact H'|]. split; [exact Hb|].
           split; intros ->; destruct s'; unfold value; try congruence; lia.
        -- replace (Z.abs (value s m + value s' m')) with (m' - m) by (destruct s, s'; unfold value; try congruence; lia). split; [exact H'|]. split; [exact Hb|].
           split; intros ->; destruct s; unfold value; try congruence; lia.
Qed.
Print Assumptions C69_ops.

(** Finite operands give infinity if the nearest float is too large, with the sign of the result; never not-a-number.  A sum of zero is plus zero unless both
    operands are minus zero. *)
Theorem C69_overflow : forall prec emax s m s' m' t, 1 <= prec -> 0 <= emax -> 0 <= m -> 0 <= m' ->
  (float_mul prec emax (Fin s m) (Fin s' m') = Inf t <-> t = xorb s s' /\ exists v, nearest prec (Z.abs (value s m * value s' m')) v /\ 2 ^ emax <= v) /\
  (float_add prec emax (Fin s m) (Fin s' m') = Inf t <->
     (t = true <-> value s m + value s' m' < 0) /\ exists v, nearest prec (Z.abs (value s m + value s' m')) v /\ 2 ^ emax <= v) /\
  float_mul prec emax (Fin s m) (Fin s' m') <> NaN /\ float_add prec emax (Fin s m) (Fin s' m') <> NaN /\
  (value s m + value s' m' = 0 -> float_add prec emax (Fin s m) (Fin s' m') = Fin (s && s') 0).
Proof.
  intros prec emax s m s' m' t Hp He Hm Hm'. assert (HE : 0 < 2 ^ emax) by (apply Z.pow_pos_nonneg; lia). assert (HP : 0 < 2 ^ prec) by (apply Z.pow_pos_nonneg; lia).
  assert (Hz : round prec 0 = 0) by (apply round_small; [assumption|lia]).
  assert (Hr : forall neg x, 0 <= x -> rounded prec emax neg x = Inf t <-> t = neg /\ exists v, nearest prec x v /\ 2 ^ emax <= v).
  { intros neg x Hx. unfold rounded. destruct (Z.leb_spec (2 ^ emax) (round prec x)) as [H|H].
    - split; [intros H'; inversion H'; subst; split; [reflexivity|]; exists (round prec x); split; [apply round_nearest; assumption|exact H]|intros [-> _]; reflexivity].
    - split; [discriminate|]. intros (_ & v & Hn & Hv). apply C69_round in Hn; [subst v; lia|assumption|assumption]. }
  assert (Hn : forall neg x, rounded prec emax neg x <> NaN) by (intros neg x; unfold rounded; destruct (_ <=? _); discriminate).
  assert (Hpos : forall x, 0 <= x -> (exists v, nearest prec x v /\ 2 ^ emax <= v) -> x <> 0).
  { intros x Hx (v & Hv & Hb) ->. apply C69_round in Hv; [|assumption|assumption]. rewrite Hz in Hv. lia. }
  split; [|split; [|split; [|split]]].
  - cbn [float_mul]. rewrite Hr by (apply Z.mul_nonneg_nonneg; assumption). replace (Z.abs (value s m * value s' m')) with (m * m'); [reflexivity|].
    destruct s, s'; unfold value; rewrite ?Z.mul_opp_opp, ?Z.mul_opp_l, ?Z.mul_opp_r, ?Z.abs_opp; symmetry; apply Z.abs_eq; apply Z.mul_nonneg_nonneg; assumption.
  - assert (Hside : forall neg x, 0 <= x -> Z.abs (value s m + value s' m') = x -> (x <> 0 -> (neg = true <-> value s m + value s' m' < 0)) ->
      (rounded prec emax neg x = Inf t <-> (t = true <-> value s m + value s' m' < 0) /\ exists v, nearest prec (Z.abs (value s m + value s' m')) v /\ 2 ^ emax <= v)).
    { intros neg x Hx Ex Hneg. rewrite Hr, Ex by assumption. split; intros [H1 H2]; specialize (Hneg (Hpos _ Hx H2)); (split; [|exact H2]).
      - subst t. exact Hneg.
      - destruct t, neg; try reflexivity; intuition congruence. }
    cbn [float_add]. destruct (Bool.eqb s s') eqn:E.
    + apply eqb_prop in E. subst s'. apply Hside; [lia|destruct s; unfold value; lia|]. intros H. destruct s; unfold value; split; intros; try discriminate; try reflexivity; lia.
    + apply eqb_false_iff in E. destruct (Z.eqb_spec m m') as [->|N].
      * split; [discriminate|]. intros [_ H]. exfalso. refine (Hpos _ _ H _); [lia|]. destruct s, s'; unfold value; try congruence; lia.
      * destruct (Z.ltb_spec m' m); (apply Hside; [lia|destruct s, s'; unfold value; try congruence; lia|]); intros _; destruct s, s'; unfold value; try congruence; split; intros; try discriminate; try reflexivity; lia.
  - cbn [float_mul]. apply Hn.
  - cbn [float_add]. destruct (Bool.eqb s s'); [apply Hn|]. destruct (m =? m'); [discriminate|]. destruct (m' <? m); apply Hn.
  - intros H. cbn [float_add]. destruct (Bool.eqb s s') eqn:E.
    + apply eqb_prop in E. subst s'. assert (m = 0 /\ m' = 0) as [-> ->] by (destruct s; unfold value in H; lia). unfold rounded. rewrite Z.add_0_l, Hz.
      destruct (Z.leb_spec (2 ^ emax) 0); [lia|]. destruct s; reflexivity.
    + apply eqb_false_iff in E. assert (m = m') by (destruct s, s'; unfold value in H; try congruence; lia). subst m'. rewrite Z.eqb_refl. destruct s, s'; try congruence; reflexivity.
Qed.
Print Assumptions C69_overflow.

(** Infinities and not-a-number, as in IEEE 754: the order of the operands does not matter; infinity times zero and the difference of infinities are not numbers. *)
Theorem C69_infinities : forall prec emax,
  (forall x y, float_mul prec emax x y = float_mul prec emax y x /\ float_add prec emax x y = float_add prec emax y x) /\
  (forall x, float_mul prec emax NaN x = NaN /\ float_add prec emax NaN x = NaN) /\
  (forall s s' m, float_add prec emax (Inf s) (Fin s' m) = Inf s /\ float_mul prec emax (Inf s) (Fin s' 0) = NaN /\ (m <> 0 -> float_mul prec emax (Inf s) (Fin s' m) = Inf (xorb s s'))) /\
  (forall s s', float_mul prec emax (Inf s) (Inf s') = Inf (xorb s s') /\ float_add prec emax (Inf s) (Inf s) = Inf s /\ float_add prec emax (Inf s) (Inf (negb s)) = NaN).
Proof.
  intros prec emax. split; [|split; [|split]].
  - intros [s m|s|] [s' m'|s'|]; cbn [float_mul float_add]; rewrite ?(xorb_comm s s'), ?(Z.mul_comm m m'); split; try reflexivity.
    + replace (Bool.eqb s' s) with (Bool.eqb s s') by (destruct s, s'; reflexivity). destruct (Bool.eqb s s') eqn:E; [apply eqb_prop in E; subst; rewrite Z.add_comm; reflexivity|].
      rewrite (Z.eqb_sym m' m). destruct (Z.eqb_spec m m'); [reflexivity|]. destruct (Z.ltb_spec m' m), (Z.ltb_spec m m'); try lia; reflexivity.
    + destruct s, s'; reflexivity.
  - intros [s m|s|]; split; reflexivity.
  - intros s s' m. split; [reflexivity|]. split; [reflexivity|]. intros H. cbn [float_mul]. destruct (Z.eqb_spec m 0); [contradiction|reflexivity].
  - intros s s'. split; [reflexivity|]. split; destruct s; reflexivity.
Qed.
Print Assumptions C69_infinities.


(** * Reading *)

(** A numeral gives a finite number or infinity, without a sign; never not-a-number, and nothing panics. *)
Theorem C69_total : forall prec emax verbose ch l ds rest, 8 <= prec -> prec < emax -> ds <> [] -> Forall a_digit ds -> ends_number l rest ->
  exists x, num_decimal verbose ch (float_num prec emax) (mkInput l (ds ++ rest)) = Data (mkInput l rest) x /\
    (x = Inf false \/ exists v, x = Fin false v /\ holds prec v /\ 0 <= v < 2 ^ emax).
Proof.
  intros prec emax verbose ch l ds rest Hp He Hne Hd Hend. rewrite num_decimal_digits by assumption.
  destruct (fold_float prec emax ch Hp He ds Hd) as [E|[E B]]; rewrite E; eexists; (split; [reflexivity|]); [auto|right].
  eexists. split; [reflexivity|]. split; [apply horner_holds; assumption|]. split; [apply horner_nonneg; [assumption|apply Z.le_refl]|exact B].
Qed.
Print Assumptions C69_total.

(** A sign changes the sign and nothing else. *)
Definition with_sign (s : Z) (x : float) : float := match x with Fin neg v => Fin (xorb (s <? 0) neg) v | Inf neg => Inf (xorb (s <? 0) neg) | NaN => NaN end.
Theorem C69_sign : forall prec emax verbose ch sg s l ds rest x, 8 <= prec -> prec < emax -> sign_of sg = Some s -> ds <> [] -> Forall a_digit ds -> ends_number l rest ->
  num_decimal verbose ch (float_num prec emax) (mkInput l (ds ++ rest)) = Data (mkInput l rest) x ->
  num_signed verbose (float_num prec emax) (num_decimal verbose ch (float_num prec emax)) (mkInput l (sg ++ ds ++ rest)) = Data (mkInput l rest) (with_sign s x).
Proof.
  intros prec emax verbose ch sg s l ds rest x Hp He Hs Hne Hd Hend V. set (ops := float_num prec emax) in *.
  assert (Hm : forall k, k = 1 \/ k = -1 -> num_mul ops (Fin (k <? 0) (Z.abs k)) x = Some (with_sign k x)).
  { intros k Hk. destruct (C69_total prec emax verbose ch l ds rest Hp He Hne Hd Hend) as (y & Hy & Hc). fold ops in Hy. rewrite Hy in V. inversion V; subst y.
    destruct Hc as [->|(v & -> & Hv & Hb)]; unfold ops; cbn [num_mul float_num with_sign].
    - destruct Hk as [-> | ->]; reflexivity.
    - cbn [float_mul]. replace (Z.abs k * v) with v by (destruct Hk as [-> | ->]; cbn [Z.abs]; destruct v; reflexivity). unfold rounded. rewrite round_holds by (assumption || lia).
      destruct (Z.leb_spec (2 ^ emax) v); [lia|reflexivity]. }
  pose proof (Hm 1 (or_introl eq_refl)) as Hm1. pose proof (Hm (-1) (or_intror eq_refl)) as Hm2.
  destruct (C54_signed _ verbose ops (num_decimal verbose ch ops) (Fin false 1) l eq_refl) as (Ha & Hb & Hc & _).
  destruct sg as [|c [|c2 sg]]; cbn [sign_of] in Hs.
  - inversion Hs; subst s. cbn [app]. destruct ds as [|d ds]; [congruence|]. inversion Hd as [|? ? Hd1 ?]; subst. cbn [app] in V |- *. rewrite Ha.
    + rewrite V. cbn [map_p]. change (Fin false 1) with (Fin (1 <? 0) (Z.abs 1)). rewrite Hm1. reflexivity.
    + intros ->. apply Hd1. reflexivity.
    + intros ->. apply Hd1. reflexivity.
  - destruct c; try discriminate; inversion Hs; subst s; cbn [app].
    + rewrite Hb, V. cbn [map_p]. change (Fin false 1) with (Fin (1 <? 0) (Z.abs 1)). rewrite Hm1. reflexivity.
    + rewrite Hc, V. cbn [map_p]. change (from_i8 ops (-1)) with (Some (Fin (-1 <? 0) (Z.abs (-1)))). cbv iota. rewrite Hm2. reflexivity.
  - destruct c; discriminate.
Qed.
Print Assumptions C69_sign.

(** Exactness: every prefix, and ten times every prefix but the last, must be a float. *)
Theorem C69_exact : forall prec emax verbose ch l ds rest, 8 <= prec -> prec < emax -> ds <> [] -> Forall a_digit ds -> ends_number l rest ->
  number ds < 2 ^ emax ->
  (forall pre c post, ds = pre ++ c :: post -> holds prec (number pre * 10) /\ holds prec (number (pre ++ [c]))) ->
  num_decimal verbose ch (float_num prec emax) (mkInput l (ds ++ rest)) = Data (mkInput l rest) (Fin false (number ds)).
Proof.
  intros prec emax verbose ch l ds rest Hp He Hne Hd Hend Hn Hh. rewrite num_decimal_digits by assumption.
  enough (G : num_to_decimal ch (float_num prec emax) ds = Some (Fin false (number ds))) by (rewrite G; reflexivity).
  clear Hne Hend. induction ds as [|c ds IH] using rev_ind; [reflexivity|].
  apply Forall_app in Hd. destruct Hd as [Hd Hc]. inversion Hc as [|? ? Hc1 _]; subst. unfold a_digit in Hc1. destruct (digit_value c) as [d|] eqn:Ed; [|congruence].
  rewrite (number_snoc ds c d Ed) in *. destruct (digit_sub true c d Ed) as [_ Hb]. pose proof (number_nonneg ds) as H0. destruct (Hh ds c [] eq_refl) as [H1 H2]. rewrite (number_snoc ds c d Ed) in H2.
  unfold num_to_decimal in *. rewrite fold_left_app. cbn [fold_left]. rewrite IH.
  - rewrite (step_fin prec emax ch _ c d Ed). rewrite round_holds by (assumption || lia). destruct (Z.leb_spec (2 ^ emax) (number ds * 10)); [lia|]. unfold rounded.
    rewrite round_holds by (assumption || lia). destruct (Z.leb_spec (2 ^ emax) (number ds * 10 + d)); [lia|reflexivity].
  - exact Hd.
  - lia.
  - intros pre x post E. apply (Hh pre x (post ++ [c])). rewrite E, <- app_assoc. reflexivity.
Qed.
Print Assumptions C69_exact.
Lemma holds_small : forall prec n, 1 <= prec -> 0 <= n <= 2 ^ prec -> holds prec n.
Proof.
  intros prec n Hp Hn. destruct (Z.eq_dec n (2 ^ prec)) as [->|N].
  - exists 1, prec. assert (2 ^ 1 <= 2 ^ prec) by (apply Z.pow_le_mono_r; lia). lia.
  - exists n, 0. rewrite Z.pow_0_r. lia.
Qed.
(** Bytes, with and without sign, are converted exactly; zero is plus zero. *)
Theorem C69_from : forall prec emax z, 8 <= prec ->
  (0 <= z < 256 -> holds prec z /\ from_u8 (float_num prec emax) z = Some (Fin false z)) /\
  (-128 <= z < 128 -> exists s m, from_i8 (float_num prec emax) z = Some (Fin s m) /\ holds prec m /\ value s m = z /\ (s = true <-> z < 0)).
Proof.
  intros prec emax z Hp. assert (2 ^ 8 <= 2 ^ prec) by (apply Z.pow_le_mono_r; lia). change (2 ^ 8) with 256 in *. split.
  - intros Hz. split; [apply holds_small; lia|reflexivity].
  - intros Hz. exists (z <? 0), (Z.abs z). split; [reflexivity|]. split; [apply holds_small; lia|]. unfold value. destruct (Z.ltb_spec z 0); split; try lia; split; intros; try discriminate; try reflexivity; lia.
Qed.
Print Assumptions C69_from.

Lemma number_app : forall a b, number (a ++ b) = number a * 10 ^ Z.of_nat (List.length b) + number b.
Proof.
  induction a as [|c a IH]; intros b; cbn [app number]; [lia|]. rewrite IH, app_length, Nat2Z.inj_add, Z.pow_add_r by lia. destruct (digit_value c); ring.
Qed.
(** So: all numbers up to [2 ^ prec], however written (leading zeros). *)
Theorem C69_small : forall prec emax verbose ch l ds rest, 8 <= prec -> prec < emax -> ds <> [] -> Forall a_digit ds -> ends_number l rest ->
  number ds <= 2 ^ prec ->
  num_decimal verbose ch (float_num prec emax) (mkInput l (ds ++ rest)) = Data (mkInput l rest) (Fin false (number ds)).
Proof.
  intros prec emax verbose ch l ds rest Hp He Hne Hd Hend Hn. apply C69_exact; auto.
  - assert (2 ^ prec < 2 ^ emax) by (apply Z.pow_lt_mono_r; lia). lia.
  - intros pre c post ->. assert (Hge : number pre * 10 <= number (pre ++ [c]) <= number (pre ++ c :: post)).
    { replace (pre ++ c :: post) with ((pre ++ [c]) ++ post) by (rewrite <- app_assoc; reflexivity). rewrite (number_app (pre ++ [c]) post), (number_app pre [c]).
      pose proof (number_nonneg [c]). pose proof (number_nonneg post). pose proof (number_nonneg pre). change (10 ^ Z.of_nat (List.length [c])) with 10.
      pose proof (Z.pow_pos_nonneg 10 (Z.of_nat (List.length post)) ltac:(lia) ltac:(lia)). nia. }
    pose proof (number_nonneg pre). split; apply holds_small; lia.
Qed.
Print Assumptions C69_small.
(** And those with zeros at the end, as long as the rest times the power of five is below [2 ^ prec]: the powers of ten up to 10^10 for [f32], 10^22 for [f64]. *)
Theorem C69_zeros : forall prec emax verbose ch l ds k rest, 8 <= prec -> prec < emax -> ds <> [] -> Forall a_digit ds -> ends_number l rest ->
  number ds * 5 ^ Z.of_nat k < 2 ^ prec -> number ds * 10 ^ Z.of_nat k < 2 ^ emax ->
  num_decimal verbose ch (float_num prec emax) (mkInput l ((ds ++ repeat "0"%byte k) ++ rest)) = Data (mkInput l rest) (Fin false (number ds * 10 ^ Z.of_nat k)).
Proof.
  intros prec emax verbose ch l ds k rest Hp He Hne Hd Hend H5 H10.
  assert (Hz : forall j, number (repeat "0"%byte j) = 0) by (induction j as [|j IH]; [reflexivity|]; cbn [repeat number]; rewrite IH; reflexivity).
  assert (Hzd : forall j, Forall a_digit (repeat "0"%byte j)) by (induction j; constructor; [discriminate|assumption]).
  assert (Hnum : forall j, number (ds ++ repeat "0"%byte j) = number ds * 10 ^ Z.of_nat j) by (intros j; rewrite number_app, Hz, repeat_length; lia).
  pose proof (number_nonneg ds) as H0.
  assert (Hsmall : number ds <= 2 ^ prec) by (pose proof (Z.pow_pos_nonneg 5 (Z.of_nat k) ltac:(lia) ltac:(lia)); nia).
  assert (Hten : forall j, (j <= k)%nat -> holds prec (number ds * 10 ^ Z.of_nat j)).
  { intros j Hj. exists (number ds * 5 ^ Z.of_nat j), (Z.of_nat j). change 10 with (5 * 2). rewrite Z.pow_mul_l. split; [|split; [lia|ring]].
    assert (0 < 5 ^ Z.of_nat j) by (apply Z.pow_pos_nonneg; lia). assert (5 ^ Z.of_nat j <= 5 ^ Z.of_nat k) by (apply Z.pow_le_mono_r; lia). nia. }
  rewrite <- (Hnum k). apply C69_exact; auto.
  - destruct ds; [congruence|discriminate].
  - apply Forall_app. auto.
  - rewrite Hnum. exact H10.
  - intros pre c post E. destruct (Nat.lt_ge_cases (List.length pre) (List.length ds)) as [L|L].
    + assert (E2 : exists post', ds = pre ++ c :: post').
      { exists (skipn (S (List.length pre)) ds). apply (f_equal (firstn (List.length ds))) in E. rewrite firstn_app, Nat.sub_diag, firstn_O, app_nil_r, firstn_all in E.
        rewrite firstn_app, firstn_all2 in E by lia. destruct (List.length ds - List.length pre)%nat as [|n] eqn:En; [lia|]. cbn [firstn] in E. rewrite E.
        replace (S (List.length pre)) with (List.length (pre ++ [c])) by (rewrite app_length; cbn; lia).
        replace (pre ++ c :: firstn n post) with ((pre ++ [c]) ++ firstn n post) at 2 by (rewrite <- app_assoc; reflexivity). rewrite skipn_app, skipn_all, Nat.sub_diag. reflexivity. }
      destruct E2 as [post' E2]. assert (Hge : number pre * 10 <= number (pre ++ [c]) <= number ds).
      { rewrite E2. replace (pre ++ c :: post') with ((pre ++ [c]) ++ post') by (rewrite <- app_assoc; reflexivity). rewrite (number_app (pre ++ [c]) post'), (number_app pre [c]).
        pose proof (number_nonneg [c]). pose proof (number_nonneg post'). pose proof (number_nonneg pre). change (10 ^ Z.of_nat (List.length [c])) with 10.
        pose proof (Z.pow_pos_nonneg 10 (Z.of_nat (List.length post')) ltac:(lia) ltac:(lia)). nia. }
      pose proof (number_nonneg pre). split; apply holds_small; lia.
    + assert (E2 : exists j, (j < k)%nat /\ pre = ds ++ repeat "0"%byte j /\ c = "0"%byte).
      { exists (List.length pre - List.length ds)%nat. pose proof (f_equal (@List.length byte) E) as El. rewrite !app_length, repeat_length in El. cbn [List.length] in El.
        pose proof (f_equal (firstn (List.length pre)) E) as E1. rewrite firstn_app, firstn_all2 in E1 by lia. rewrite firstn_app, Nat.sub_diag, firstn_O, app_nil_r, firstn_all in E1.
        assert (Hf : forall n m, (n <= m)%nat -> firstn n (repeat "0"%byte m) = repeat "0"%byte n).
        { induction n as [|n IHn]; intros [|m] Hm; cbn [firstn repeat]; [reflexivity|reflexivity|lia|]. rewrite IHn by lia. reflexivity. }
        rewrite Hf in E1 by lia. split; [lia|]. split; [symmetry; exact E1|].
        assert (Hin : In c (repeat "0"%byte k)).
        { rewrite <- E1 in E. apply (f_equal (skipn (List.length ds))) in E. rewrite <- app_assoc in E. rewrite !skipn_app, !skipn_all, Nat.sub_diag in E. cbn [app skipn] in E.
          rewrite E. apply in_or_app. right. left. reflexivity. }
        apply repeat_spec in Hin. exact Hin. }
      destruct E2 as (j & Hj & -> & ->). rewrite <- app_assoc. replace (repeat "0"%byte j ++ ["0"%byte]) with (repeat "0"%byte (S j)).
      2: { clear. induction j as [|j IH]; [reflexivity|]. cbn [repeat app] in *. rewrite <- IH. reflexivity. }
      rewrite !Hnum. replace (number ds * 10 ^ Z.of_nat j * 10) with (number ds * 10 ^ Z.of_nat (S j)) by (rewrite Nat2Z.inj_succ, Z.pow_succ_r by lia; ring). split; apply Hten; lia.
Qed.
Print Assumptions C69_zeros.

(** Beyond: each digit costs two roundings.  Where the result is finite it is that close; far enough below the largest float it is finite, far enough above it is infinite. *)
Theorem C69_error : forall prec emax verbose ch l ds rest v s, 8 <= prec -> prec < emax -> ds <> [] -> Forall a_digit ds -> ends_number l rest ->
  2 * Z.of_nat (List.length ds) <= 2 ^ prec ->
  num_decimal verbose ch (float_num prec emax) (mkInput l (ds ++ rest)) = Data (mkInput l rest) (Fin s v) -> close prec (2 * Z.of_nat (List.length ds)) (number ds) v.
Proof.
  intros prec emax verbose ch l ds rest v s Hp He Hne Hd Hend Hl. rewrite num_decimal_digits by assumption.
  destruct (fold_float prec emax ch Hp He ds Hd) as [E|[E B]]; rewrite E; intros H; inversion H; subst. apply horner_close; assumption.
Qed.
Print Assumptions C69_error.
Theorem C69_infinite : forall prec emax verbose ch l ds rest, 8 <= prec -> prec < emax -> ds <> [] -> Forall a_digit ds -> ends_number l rest ->
  2 * Z.of_nat (List.length ds) <= 2 ^ prec -> 2 ^ prec * 2 ^ emax <= (2 ^ prec - 2 * Z.of_nat (List.length ds)) * number ds ->
  num_decimal verbose ch (float_num prec emax) (mkInput l (ds ++ rest)) = Data (mkInput l rest) (Inf false).
Proof.
  intros prec emax verbose ch l ds rest Hp He Hne Hd Hend Hl Hbig. destruct (C69_total prec emax verbose ch l ds rest Hp He Hne Hd Hend) as (x & Hx & [->|(v & -> & _ & Hv)]); [exact Hx|exfalso].
  destruct (C69_error _ _ _ _ _ _ _ _ _ Hp He Hne Hd Hend Hl Hx) as [H1 _]. pose proof (Z.pow_pos_nonneg 2 prec). nia.
Qed.
Print Assumptions C69_infinite.
Theorem C69_finite : forall prec emax verbose ch l ds rest, 8 <= prec -> prec < emax -> ds <> [] -> Forall a_digit ds -> ends_number l rest ->
  2 * Z.of_nat (List.length ds) < 2 ^ prec -> 2 ^ prec * number ds < (2 ^ prec - 2 * Z.of_nat (List.length ds)) * 2 ^ emax ->
  exists v, num_decimal verbose ch (float_num prec emax) (mkInput l (ds ++ rest)) = Data (mkInput l rest) (Fin false v).
Proof.
  intros prec emax verbose ch l ds rest Hp He Hne Hd Hend Hl Hlow. rewrite num_decimal_digits by assumption.
  enough (G : exists v, num_to_decimal ch (float_num prec emax) ds = Some (Fin false v)) by (destruct G as [v ->]; eauto).
  exists (fold_left (horner prec) ds 0). clear Hne Hend. induction ds as [|c ds IH] using rev_ind; [reflexivity|].
  pose proof (proj1 (horner_close prec Hp (ds ++ [c]) Hd ltac:(lia))) as [_ Hcl].
  apply Forall_app in Hd. destruct Hd as [Hd Hc]. inversion Hc as [|? ? Hc1 _]; subst. unfold a_digit in Hc1. destruct (digit_value c) as [d|] eqn:Ed; [|congruence].
  destruct (digit_sub true c d Ed) as [_ Hb]. rewrite (horner_snoc prec ds c d Ed) in *. rewrite (number_snoc ds c d Ed) in *. rewrite app_length in *. cbn [List.length] in *.
  pose proof (number_nonneg ds) as H0. assert (HP : 0 < 2 ^ prec) by (apply Z.pow_pos_nonneg; lia). assert (HE : 0 < 2 ^ emax) by (apply Z.pow_pos_nonneg; lia).
  set (k := Z.of_nat (List.length ds + 1)) in *. assert (Hk : Z.of_nat (List.length ds) = k - 1) by lia.
  destruct (proj2 (horner_close prec Hp ds Hd ltac:(lia)) c d Ed ltac:(lia)) as [_ Hm]. rewrite Hk in *.
  unfold num_to_decimal in *. rewrite fold_left_app. cbn [fold_left]. rewrite IH; [|assumption|lia|nia].
  rewrite (step_fin prec emax ch _ c d Ed). set (w := round prec (fold_left (horner prec) ds 0 * 10)) in *.
  assert (Hw : w < 2 ^ emax) by nia. destruct (Z.leb_spec (2 ^ emax) w); [lia|]. unfold rounded.
  assert (Hw2 : round prec (w + d) < 2 ^ emax) by nia. destruct (Z.leb_spec (2 ^ emax) (round prec (w + d))); [lia|reflexivity].
Qed.
Print Assumptions C69_finite.

(** * What does not hold *)

(** The result need not be the nearest float. *)
Theorem C69_nearest_refuted :
  (exists v, num_decimal true true f32 (mkInput true (bytes "33554451"%string)) = Data (mkInput true []) (Fin false v) /\ ~ nearest 24 33554451 v) /\
  (exists v, num_decimal true true f64 (mkInput true (bytes "100000000000000010"%string)) = Data (mkInput true []) (Fin false v) /\ ~ nearest 53 100000000000000010 v).
Proof.
  split; (eexists; split; [vm_compute; reflexivity|]); intros H; apply C69_round in H; try lia; vm_compute in H; discriminate.
Qed.
Print Assumptions C69_nearest_refuted.
(** And a larger number of as many digits may give a smaller result. *)
Theorem C69_monotone_refuted :
  (exists v w, num_decimal true true f32 (mkInput true (bytes "167772199"%string)) = Data (mkInput true []) (Fin false v) /\
               num_decimal true true f32 (mkInput true (bytes "167772200"%string)) = Data (mkInput true []) (Fin false w) /\ w < v) /\
  (exists v w, num_decimal true true f64 (mkInput true (bytes "90071992547409959"%string)) = Data (mkInput true []) (Fin false v) /\
               num_decimal true true f64 (mkInput true (bytes "90071992547409960"%string)) = Data (mkInput true []) (Fin false w) /\ w < v).
Proof. split; (do 2 eexists; split; [vm_compute; reflexivity|split; [vm_compute; reflexivity|lia]]). Qed.
Print Assumptions C69_monotone_refuted.

(** * Cases *)
Example C69_case_small : num_decimal true true f32 (mkInput false (bytes "0016777216;"%string)) = Data (mkInput false (bytes ";"%string)) (Fin false 16777216).
Proof. exact (C69_small 24 128 true true false (bytes "0016777216"%string) (bytes ";"%string) ltac:(lia) ltac:(lia) ltac:(discriminate) ltac:(repeat constructor; discriminate) ltac:(intros H; apply H; reflexivity) ltac:(vm_compute; discriminate)). Qed.
Example C69_case_zeros : num_decimal true true f64 (mkInput true (bytes "10000000000000000000000"%string)) = Data (mkInput true []) (Fin false (10 ^ 22)).
Proof.
  replace (bytes "10000000000000000000000"%string) with ((bytes "1"%string ++ repeat "0"%byte 22) ++ []) by (vm_compute; reflexivity).
  replace (10 ^ 22) with (number (bytes "1"%string) * 10 ^ Z.of_nat 22) by (vm_compute; reflexivity).
  apply C69_zeros; [lia|lia|discriminate|repeat constructor; discriminate|reflexivity|vm_compute; reflexivity|vm_compute; reflexivity].
Qed.
(** Minus zero; infinity at the 39th digit of an [f32]; the next power of ten after those of [C69_zeros] is one unit off. *)
Example C69_case_sign : num_signed true f32 (num_decimal true true f32) (mkInput true (bytes "-0"%string)) = Data (mkInput true []) (Fin true 0) /\
  num_signed true f32 (num_decimal true true f32) (mkInput true (bytes "-400000000000000000000000000000000000000"%string)) = Data (mkInput true []) (Inf true).
Proof. split; vm_compute; reflexivity. Qed.
Example C69_case_infinite : num_decimal true true f32 (mkInput true (bytes "400000000000000000000000000000000000000"%string)) = Data (mkInput true []) (Inf false) /\
  exists v, num_decimal true true f32 (mkInput true (bytes "340000000000000000000000000000000000000"%string)) = Data (mkInput true []) (Fin false v).
Proof.
  split.
  - apply (C69_infinite 24 128 true true true (bytes "400000000000000000000000000000000000000"%string) []); [lia|lia|discriminate|repeat constructor; discriminate|reflexivity|vm_compute; discriminate|vm_compute; discriminate].
  - apply (C69_finite 24 128 true true true (bytes "340000000000000000000000000000000000000"%string) []); [lia|lia|discriminate|repeat constructor; discriminate|reflexivity|vm_compute; reflexivity|vm_compute; reflexivity].
Qed.
Example C69_case_ops : float_add 24 128 (Fin false 16777216) (Fin false 1) = Fin false 16777216 /\ float_add 24 128 (Fin false 16777216) (Fin false 3) = Fin false 16777220 /\
  float_add 24 128 (Fin true 5) (Fin false 3) = Fin true 2 /\ float_add 24 128 (Fin true 5) (Fin false 5) = Fin false 0 /\ float_mul 24 128 (Inf true) (Fin false 0) = NaN.
Proof. repeat split; vm_compute; reflexivity. Qed.
Example C69_case_overflow : float_mul 24 128 (Fin true (2 ^ 127)) (Fin false 2) = Inf true /\ float_add 24 128 (Fin true (2 ^ 127)) (Fin true (2 ^ 127)) = Inf true /\
  float_add 24 128 (Fin true 0) (Fin true 0) = Fin true 0 /\ exists v, nearest 24 (Z.abs (value true (2 ^ 127) * value false 2)) v /\ 2 ^ 128 <= v.
Proof.
  split; [vm_compute; reflexivity|]. split; [vm_compute; reflexivity|]. split; [vm_compute; reflexivity|]. exists (2 ^ 128). split; [|apply Z.le_refl].
  apply C69_round; [lia|apply Z.abs_nonneg|vm_compute; reflexivity].
Qed.
