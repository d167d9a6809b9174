(** Proofs about rounding, and about reading digits with it. *)
From Coq Require Import List Bool Arith ZArith Lia.
From Coq.Init Require Import Byte.
From Verif Require Import Base Ascii SpecAscii AsciiProofs Numbers Floats SpecFloats.
Import ListNotations.
Open Scope Z_scope.

Section Round.
  Variable prec : Z.
  Hypothesis Hp : 1 <= prec.

  Lemma round_small : forall m, 0 <= m < 2 ^ prec -> round prec m = m.
  Proof.
    intros m Hm. unfold round. rewrite Z.max_l.
    - rewrite Z.pow_0_r, Z.mod_1_r, Z.div_1_r. exact (Z.mul_1_l m).
    - destruct (Z.eq_dec m 0) as [->|]; [change (Z.log2 0) with 0; lia|]. assert (Z.log2 m < prec) by (apply Z.log2_lt_pow2; lia). lia.
  Qed.

  (** Above: the unit in the last place, the two candidates. *)
  Lemma round_big : forall m, 2 ^ prec <= m -> exists e q r, 1 <= e /\ m = q * 2 ^ e + r /\ 0 <= r < 2 ^ e /\ 2 ^ (prec - 1) <= q < 2 ^ prec /\
    round prec m = 2 ^ e * (if 2 * r <? 2 ^ e then q else if 2 ^ e <? 2 * r then q + 1 else if Z.even q then q else q + 1).
  Proof.
    intros m Hm. assert (H0 : 0 < m) by (pose proof (Z.pow_pos_nonneg 2 prec); lia). pose proof (Z.log2_spec m H0) as [L1 L2].
    assert (Hl : prec <= Z.log2 m) by (apply Z.log2_le_pow2; assumption).
    exists (Z.log2 m + 1 - prec), (m / 2 ^ (Z.log2 m + 1 - prec)), (m mod 2 ^ (Z.log2 m + 1 - prec)). set (e := Z.log2 m + 1 - prec) in *.
    assert (Ht : 0 < 2 ^ e) by (apply Z.pow_pos_nonneg; lia). pose proof (Z.div_mod m (2 ^ e) ltac:(lia)) as Hd. pose proof (Z.mod_pos_bound m (2 ^ e) Ht) as Hb.
    assert (E1 : 2 ^ Z.log2 m = 2 ^ (prec - 1) * 2 ^ e) by (rewrite <- Z.pow_add_r by lia; f_equal; lia).
    assert (E2 : 2 ^ Z.succ (Z.log2 m) = 2 ^ prec * 2 ^ e) by (rewrite <- Z.pow_add_r by lia; f_equal; lia).
    repeat split; try lia.
    - apply Z.div_le_lower_bound; lia.
    - apply Z.div_lt_upper_bound; lia.
    - unfold round. fold e. rewrite Z.max_r by lia. reflexivity.
  Qed.

  Lemma round_nonneg : forall m, 0 <= m -> 0 <= round prec m.
  Proof.
    intros m Hm. destruct (Z.lt_ge_cases m (2 ^ prec)) as [H|H]; [rewrite round_small; lia|].
    destruct (round_big m H) as (e & q & r & He & E & Hr & Hq & ->). assert (0 < 2 ^ (prec - 1)) by (apply Z.pow_pos_nonneg; lia).
    apply Z.mul_nonneg_nonneg; [lia|]. destruct (2 * r <? 2 ^ e), (2 ^ e <? 2 * r), (Z.even q); lia.
  Qed.

  Lemma round_nearest : forall m, 0 <= m -> nearest prec m (round prec m).
  Proof.
    intros m Hm. assert (HP : 0 < 2 ^ prec) by (apply Z.pow_pos_nonneg; lia). destruct (Z.lt_ge_cases m (2 ^ prec)) as [H|H].
    - rewrite round_small by lia. split; [exists m, 0; rewrite Z.pow_0_r; lia|]. intros w _ Hw. left. rewrite Z.sub_diag. cbn. lia.
    - destruct (round_big m H) as (e & q & r & He & E & Hr & Hq & ->). set (t := 2 ^ e) in *. assert (Ht : 0 < t) by (apply Z.pow_pos_nonneg; lia).
      assert (Hev : exists t2, t = 2 * t2) by (exists (2 ^ (e - 1)); unfold t; rewrite <- Z.pow_succ_r by lia; f_equal; lia).
      assert (HE : 2 ^ prec = 2 * 2 ^ (prec - 1)) by (rewrite <- Z.pow_succ_r by lia; f_equal; lia).
      set (c := if 2 * r <? t then q else if t <? 2 * r then q + 1 else if Z.even q then q else q + 1).
      assert (Hc : (c = q /\ 2 * r < t) \/ (c = q + 1 /\ t < 2 * r) \/ (2 * r = t /\ Z.even c = true /\ (c = q \/ c = q + 1))).
      { unfold c. destruct (Z.ltb_spec (2 * r) t); [auto|]. destruct (Z.ltb_spec t (2 * r)); [auto|]. right. right. split; [lia|].
        destruct (Z.even q) eqn:Q; [auto|]. split; [|auto]. rewrite Z.add_1_r, Z.even_succ, <- Z.negb_even, Q. reflexivity. }
      clearbody c. split.
      + destruct (Z.eq_dec c (2 ^ prec)) as [Ec|Ec].
        * exists 1, (prec + e). rewrite Z.pow_add_r by lia. fold t. rewrite Ec. assert (2 ^ 1 <= 2 ^ prec) by (apply Z.pow_le_mono_r; lia). repeat split; lia.
        * exists c, e. fold t. repeat split; try lia.
      + intros w (q' & e' & Hq' & He' & Ew) Hne.
        (* multiples of the unit *)
        assert (Hmul : forall k, k <> c -> Z.abs (m - t * c) < Z.abs (m - t * k) \/ Z.abs (m - t * c) = Z.abs (m - t * k) /\ Z.even c = true /\ Z.even k = false).
        { intros k Hk. assert (Hcases : k <= q - 1 \/ k = q \/ k = q + 1 \/ q + 2 <= k) by lia.
          destruct Hcases as [K|[K|[K|K]]].
          - left. assert (t * k <= t * (q - 1)) by (apply Z.mul_le_mono_nonneg_l; lia).
            destruct Hc as [(-> & C)|[(-> & C)|(C & _ & [->| ->])]]; lia.
          - subst k. destruct Hc as [(-> & C)|[(-> & C)|(C & Cv & [->| ->])]]; try lia. right. repeat split; [lia|assumption|].
            rewrite Z.add_1_r, Z.even_succ, <- Z.negb_even in Cv. destruct (Z.even q); [discriminate|reflexivity].
          - subst k. destruct Hc as [(-> & C)|[(-> & C)|(C & Cv & [->| ->])]]; try lia. right. repeat split; [lia|assumption|].
            rewrite Z.add_1_r, Z.even_succ, <- Z.negb_even, Cv. reflexivity.
          - left. assert (t * (q + 2) <= t * k) by (apply Z.mul_le_mono_nonneg_l; lia).
            destruct Hc as [(-> & C)|[(-> & C)|(C & _ & [->| ->])]]; lia. }
        destruct (Z.lt_ge_cases e' e) as [Hlt|Hge].
        * (* a float below the range of m *)
          assert (Hw : w < t * 2 ^ (prec - 1)).
          { subst w. apply Z.lt_le_trans with (2 ^ prec * 2 ^ e'); [apply Z.mul_lt_mono_pos_r; [apply Z.pow_pos_nonneg|]; lia|].
            unfold t. rewrite <- !Z.pow_add_r by lia. apply Z.pow_le_mono_r; lia. }
          assert (Hlow : t * 2 ^ (prec - 1) <= m) by (rewrite E; pose proof (Z.mul_le_mono_nonneg_l (2 ^ (prec - 1)) q t); lia).
          left. destruct (Z.eq_dec (2 ^ (prec - 1)) c) as [Ec|Ec].
          -- rewrite <- Ec. lia.
          -- destruct (Hmul _ Ec) as [K|[K _]]; lia.
        * assert (Ek : w = t * (q' * 2 ^ (e' - e))).
          { rewrite Ew. unfold t. replace e' with (e + (e' - e)) at 1 by lia. rewrite Z.pow_add_r by lia. ring. }
          destruct (Hmul (q' * 2 ^ (e' - e))) as [K|(K & Kc & Kk)].
          -- intros Hk. apply Hne. rewrite Ek, Hk. reflexivity.
          -- left. rewrite Ek. exact K.
          -- right. split; [rewrite Ek; exact K|]. exists (e + 1). rewrite Z.pow_add_r, Z.pow_1_r by lia. fold t. split; [lia|]. split.
             ++ apply Z.even_spec in Kc. destruct Kc as [h ->]. exists h. ring.
             ++ intros [h Hh]. rewrite Ek in Hh. assert (q' * 2 ^ (e' - e) = 2 * h) by (apply (Z.mul_reg_l _ _ t); lia).
                rewrite H0 in Kk. rewrite Z.even_mul in Kk. discriminate.
  Qed.

  (** There is only one nearest float. *)
  Lemma nearest_unique : forall m v w, nearest prec m v -> nearest prec m w -> v = w.
  Proof.
    intros m v w [Hv Bv] [Hw Bw]. destruct (Z.eq_dec v w) as [E|E]; [exact E|exfalso].
    destruct (Bv w Hw ltac:(congruence)) as [K|(K & e & He & D & N)]; [destruct (Bw v Hv ltac:(congruence)) as [K'|[K' _]]; lia|].
    destruct (Bw v Hv ltac:(congruence)) as [K'|(K' & e' & He' & D' & N')]; [lia|].
    destruct (Z.le_ge_cases e e').
    - apply N. apply Z.divide_trans with (2 ^ e'); [|exact D']. exists (2 ^ (e' - e)). rewrite <- Z.pow_add_r by lia. f_equal. lia.
    - apply N'. apply Z.divide_trans with (2 ^ e); [|exact D]. exists (2 ^ (e - e')). rewrite <- Z.pow_add_r by lia. f_equal. lia.
  Qed.

  Lemma round_holds : forall m, holds prec m -> round prec m = m.
  Proof.
    intros m Hm. assert (H0 : 0 <= m) by (destruct Hm as (q & e & Hq & He & ->); pose proof (Z.pow_nonneg 2 e); nia).
    apply (nearest_unique m); [apply round_nearest; exact H0|]. split; [exact Hm|]. intros w _ Hw. left. rewrite Z.sub_diag. cbn. lia.
  Qed.

  (** The error is at most half a unit in the last place, one part in [2 ^ prec]. *)
  Lemma round_error : forall m, 0 <= m -> 2 ^ prec * Z.abs (round prec m - m) <= m.
  Proof.
    intros m Hm. destruct (Z.lt_ge_cases m (2 ^ prec)) as [H|H]; [rewrite round_small by lia; rewrite Z.sub_diag; cbn; lia|].
    destruct (round_big m H) as (e & q & r & He & E & Hr & Hq & ->). set (t := 2 ^ e) in *.
    assert (HE : 2 ^ prec = 2 * 2 ^ (prec - 1)) by (rewrite <- Z.pow_succ_r by lia; f_equal; lia).
    assert (Hd : 2 * Z.abs (t * (if 2 * r <? t then q else if t <? 2 * r then q + 1 else if Z.even q then q else q + 1) - m) <= t).
    { destruct (Z.ltb_spec (2 * r) t); [lia|]. destruct (Z.ltb_spec t (2 * r)); [lia|]. destruct (Z.even q); lia. }
    set (d := Z.abs _) in *. assert (0 <= d) by apply Z.abs_nonneg. assert (0 < 2 ^ (prec - 1)) by (apply Z.pow_pos_nonneg; lia).
    rewrite HE. apply Z.le_trans with (2 ^ (prec - 1) * t); [|rewrite E]; nia.
  Qed.

  Lemma round_mono : forall a b, 0 <= a <= b -> round prec a <= round prec b.
  Proof.
    intros a b H. destruct (Z.eq_dec a b) as [->|N]; [lia|]. pose proof (round_nearest a ltac:(lia)) as [Ha Ba]. pose proof (round_nearest b ltac:(lia)) as [Hb Bb].
    destruct (Z.le_gt_cases (round prec a) (round prec b)) as [|G]; [assumption|exfalso].
    assert (round prec a <> round prec b) by lia. destruct (Ba _ Hb ltac:(lia)) as [K|[K _]], (Bb _ Ha ltac:(lia)) as [K'|[K' _]]; lia.
  Qed.

  (** One operation more. *)
  Lemma close_round : forall k n v, 0 <= k -> k + 1 <= 2 ^ prec -> 0 <= n -> 0 <= v -> close prec k n v -> close prec (k + 1) n (round prec v).
  Proof.
    intros k n v Hk Hk' Hn Hv [H1 H2]. pose proof (round_error v Hv) as He. pose proof (round_nonneg v Hv) as Hr. unfold close. set (P := 2 ^ prec) in *. set (w := round prec v) in *. clearbody P w.
    assert (HP : 0 < P) by lia.
    assert (E1 : P * (v - w) <= v) by (apply Z.le_trans with (P * Z.abs (w - v)); [apply Z.mul_le_mono_nonneg_l; lia|exact He]).
    assert (E2 : P * (w - v) <= v) by (apply Z.le_trans with (P * Z.abs (w - v)); [apply Z.mul_le_mono_nonneg_l; lia|exact He]).
    split; apply (Z.mul_le_mono_pos_l _ _ P HP).
    - apply Z.le_trans with ((P - 1) * ((P - k) * n)); [assert (0 <= k * n) by (apply Z.mul_nonneg_nonneg; lia); nia|].
      apply Z.le_trans with ((P - 1) * (P * v)); [apply Z.mul_le_mono_nonneg_l; lia|].
      replace ((P - 1) * (P * v)) with (P * ((P - 1) * v)) by ring. apply Z.mul_le_mono_nonneg_l; lia.
    - apply Z.le_trans with ((P - (k + 1)) * ((P + 1) * v)); [replace (P * ((P - (k + 1)) * w)) with ((P - (k + 1)) * (P * w)) by ring; apply Z.mul_le_mono_nonneg_l; lia|].
      apply Z.le_trans with (P * ((P - k) * v)); [assert (0 <= (k + 1) * v) by (apply Z.mul_nonneg_nonneg; lia); nia|]. apply Z.mul_le_mono_nonneg_l; lia.
  Qed.
  Lemma close_exact : forall k n v a b, 0 <= k -> k <= 2 ^ prec -> 0 <= a -> 0 <= b -> 0 <= n -> 0 <= v -> close prec k n v -> close prec k (n * a + b) (v * a + b).
  Proof. intros k n v a b Hk Hk' Ha Hb Hn Hv [H1 H2]. unfold close. set (P := 2 ^ prec) in *. clearbody P. split; nia. Qed.
  Lemma close_refl : forall n, close prec 0 n n.
  Proof. intros n. unfold close. rewrite Z.sub_0_r. split; apply Z.le_refl. Qed.
End Round.

(** * Reading *)
Section Reading.
  Variables (prec emax : Z) (ch : bool).
  Hypothesis Hp : 8 <= prec.
  Hypothesis He : prec < emax.
  Let ops := float_num prec emax.

  (** The digits, with rounding but without overflow. *)
  Definition horner (v : Z) (c : byte) : Z := round prec (round prec (v * 10) + match digit_value c with Some d => d | None => 0 end).

  Lemma number_snoc : forall ds c d, digit_value c = Some d -> number (ds ++ [c]) = number ds * 10 + d.
  Proof.
    intros ds c d Hd. induction ds as [|x ds IH]; cbn [app number List.length]; [rewrite Hd; cbn; lia|]. rewrite IH, app_length. cbn [List.length].
    rewrite Nat.add_1_r, Nat2Z.inj_succ, Z.pow_succ_r by lia. destruct (digit_value x); ring.
  Qed.
  Lemma horner_snoc : forall ds c d, digit_value c = Some d -> fold_left horner (ds ++ [c]) 0 = round prec (round prec (fold_left horner ds 0 * 10) + d).
  Proof. intros ds c d Hd. rewrite fold_left_app. cbn [fold_left]. unfold horner at 1. rewrite Hd. reflexivity. Qed.
  Lemma horner_nonneg : forall ds v, 0 <= v -> 0 <= fold_left horner ds v.
  Proof.
    induction ds as [|c ds IH]; intros v Hv; [exact Hv|]. cbn [fold_left]. apply IH. unfold horner. apply round_nonneg; [lia|]. assert (0 <= round prec (v * 10)) by (apply round_nonneg; lia).
    destruct (digit_value c) as [d|] eqn:E; [|lia]. destruct (digit_sub true c d E). lia.
  Qed.
  Lemma horner_holds : forall ds, holds prec (fold_left horner ds 0).
  Proof.
    intros ds. destruct ds as [|c ds] using rev_ind; [exists 0, 0; cbn; pose proof (Z.pow_pos_nonneg 2 prec); lia|]. rewrite fold_left_app. cbn [fold_left]. unfold horner at 1.
    apply round_nearest; [lia|]. pose proof (horner_nonneg ds 0 (Z.le_refl 0)) as H. assert (0 <= round prec (fold_left horner ds 0 * 10)) by (apply round_nonneg; lia).
    destruct (digit_value c) as [d|] eqn:E; [|lia]. destruct (digit_sub true c d E). lia.
  Qed.

  (** One step of the fold. *)
  Lemma step_fin : forall v c d, digit_value c = Some d ->
    num_step ch ops (Some (Fin false v)) c = Some (if 2 ^ emax <=? round prec (v * 10) then Inf false else rounded prec emax false (round prec (v * 10) + d)).
  Proof.
    intros v c d Hd. destruct (digit_sub ch c d Hd) as [Hs _]. unfold num_step, and_then, ops. cbn [from_u8 num_mul num_add float_num float_mul xorb]. rewrite Hs. unfold rounded at 1.
    destruct (2 ^ emax <=? round prec (v * 10)); reflexivity.
  Qed.
  Lemma step_inf : forall c d, digit_value c = Some d -> num_step ch ops (Some (Inf false)) c = Some (Inf false).
  Proof. intros c d Hd. destruct (digit_sub ch c d Hd) as [Hs _]. unfold num_step, and_then, ops. cbn [from_u8 num_mul num_add float_num float_mul xorb]. rewrite Hs. reflexivity. Qed.

  (** Infinite, or what the digits give. *)
  Lemma fold_float : forall ds, Forall a_digit ds ->
    num_to_decimal ch ops ds = Some (Inf false) \/ (num_to_decimal ch ops ds = Some (Fin false (fold_left horner ds 0)) /\ fold_left horner ds 0 < 2 ^ emax).
  Proof.
    intros ds. induction ds as [|c ds IH] using rev_ind; intros Hd.
    - right. split; [reflexivity|]. cbn. apply Z.pow_pos_nonneg; lia.
    - apply Forall_app in Hd. destruct Hd as [Hd Hc]. inversion Hc as [|? ? Hc1 _]; subst. unfold a_digit in Hc1. destruct (digit_value c) as [d|] eqn:Ed; [|congruence].
      rewrite (horner_snoc ds c d Ed). unfold num_to_decimal in *. rewrite fold_left_app. cbn [fold_left]. destruct (IH Hd) as [E|[E B]]; rewrite E.
      + left. apply (step_inf c d Ed).
      + rewrite (step_fin _ c d Ed). unfold rounded. destruct (Z.leb_spec (2 ^ emax) (round prec (fold_left horner ds 0 * 10))); [left; reflexivity|].
        destruct (Z.leb_spec (2 ^ emax) (round prec (round prec (fold_left horner ds 0 * 10) + d))); [left; reflexivity|right; auto].
  Qed.

  Lemma horner_close : forall ds, Forall a_digit ds -> 2 * Z.of_nat (List.length ds) <= 2 ^ prec ->
    close prec (2 * Z.of_nat (List.length ds)) (number ds) (fold_left horner ds 0) /\
    forall c d, digit_value c = Some d -> 2 * Z.of_nat (List.length ds) + 1 <= 2 ^ prec -> close prec (2 * Z.of_nat (List.length ds) + 1) (number ds * 10) (round prec (fold_left horner ds 0 * 10)).
  Proof.
    assert (Hmul : forall ds k, 0 <= k -> k + 1 <= 2 ^ prec -> close prec k (number ds) (fold_left horner ds 0) -> close prec (k + 1) (number ds * 10) (round prec (fold_left horner ds 0 * 10))).
    { intros ds k Hk Hk' H. pose proof (number_nonneg ds). pose proof (horner_nonneg ds 0 (Z.le_refl 0)).
      pose proof (close_exact prec k (number ds) (fold_left horner ds 0) 10 0 Hk ltac:(lia) ltac:(lia) ltac:(lia) ltac:(lia) ltac:(lia) H) as G. rewrite !Z.add_0_r in G.
      apply close_round; try lia. exact G. }
    intros ds. induction ds as [|c ds IH] using rev_ind; intros Hd Hl.
    - split; [apply close_refl|]. intros c d _ Hk. apply Hmul; [lia|exact Hk|apply close_refl].
    - apply Forall_app in Hd. destruct Hd as [Hd Hc]. inversion Hc as [|? ? Hc1 _]; subst. unfold a_digit in Hc1. destruct (digit_value c) as [d|] eqn:Ed; [|congruence].
      rewrite app_length in *. cbn [List.length] in *. destruct (IH Hd ltac:(lia)) as [_ H2]. specialize (H2 c d Ed ltac:(lia)). destruct (digit_sub true c d Ed) as [_ Hdb].
      assert (Hn : close prec (2 * Z.of_nat (List.length ds + 1)) (number (ds ++ [c])) (fold_left horner (ds ++ [c]) 0)).
      { rewrite (horner_snoc ds c d Ed), (number_snoc ds c d Ed). pose proof (number_nonneg ds). pose proof (horner_nonneg ds 0 (Z.le_refl 0)).
        assert (Hr : 0 <= round prec (fold_left horner ds 0 * 10)) by (apply round_nonneg; lia).
        pose proof (close_exact prec (2 * Z.of_nat (List.length ds) + 1) (number ds * 10) (round prec (fold_left horner ds 0 * 10)) 1 d ltac:(lia) ltac:(lia) ltac:(lia) ltac:(lia) ltac:(lia) Hr H2) as G.
        rewrite !Z.mul_1_r in G. replace (2 * Z.of_nat (List.length ds + 1)) with (2 * Z.of_nat (List.length ds) + 1 + 1) by lia. apply close_round; try lia. exact G. }
      split; [exact Hn|]. intros c' d' _ Hk. apply Hmul; [lia|exact Hk|exact Hn].
  Qed.
End Reading.
