(** Property theorems C54: numbers of any type. *)
From Coq Require Import List Bool Arith ZArith Lia.
From Coq.Init Require Import Byte.
From Coq.Strings Require Import Byte String.
From Coq Require Import List.
From Verif Require Import Base Parsers Combinators SpecBase BaseProofs Ascii SpecAscii AsciiProofs PropsAscii Numbers SpecNumbers.
Import ListNotations.
Open Scope Z_scope.

(** * The machine integers of C23 and C24 are one case *)
Theorem C54_instance : forall verbose ch T,
  (forall i, num_decimal verbose ch (int_num T ch) i = decimal verbose ch T i) /\
  (forall f i, num_signed verbose (int_num T ch) f i = signed verbose ch T f i).
Proof.
  intros verbose ch T. split.
  - reflexivity.
  - intros f [l b]. unfold num_signed, signed. cbn [from_i8 int_num]. unfold option_, satisfy. cbn [buf last].
    destruct b as [|c b]; cbn [first map_p map incomplete].
    + destruct l; cbn [bind ret incomplete]; [|reflexivity]. destruct (f _); cbn [map_p]; reflexivity.
    + destruct (byte_eqb c "-" || byte_eqb c "+")%bool; cbn [ret map map_p bind err]; destruct (f _); reflexivity.
Qed.
Print Assumptions C54_instance.

(** * The outcome for any type *)
Lemma num_decimal_digits T verbose ch (ops : num_ops T) l ds rest : ds <> [] -> Forall a_digit ds -> ends_number l rest ->
  num_decimal verbose ch ops (mkInput l (ds ++ rest)) = match num_to_decimal ch ops ds with Some v => Data (mkInput l rest) v | None => Panic end.
Proof. intros H1 H2 H3. unfold num_decimal. rewrite take_digits by assumption. cbn [bind]. destruct (num_to_decimal ch ops ds); reflexivity. Qed.
(** A type that calculates like the integers as far as the number goes yields the number that is written there. *)
Lemma num_fold T ch (ops : num_ops T) within phi ds : counts ops within phi -> Forall a_digit ds ->
  forall a, 0 <= a -> within (a * 10 ^ Z.of_nat (List.length ds) + number ds) ->
  fold_left (num_step ch ops) ds (Some (phi a)) = Some (phi (a * 10 ^ Z.of_nat (List.length ds) + number ds)).
Proof.
  intros C. induction 1 as [|c ds Hc Hd IH]; intros a Ha Hw.
  - cbn [fold_left number List.length]. do 2 f_equal. cbn. lia.
  - unfold a_digit in Hc. destruct (digit_value c) as [d|] eqn:Ed; [|congruence]. clear Hc. destruct (digit_sub ch c d Ed) as [Hs Hb].
    assert (Hv : a * 10 ^ Z.of_nat (List.length (c :: ds)) + number (c :: ds) = (a * 10 + d) * 10 ^ Z.of_nat (List.length ds) + number ds).
    { cbn [number List.length]. rewrite Ed, Nat2Z.inj_succ, Z.pow_succ_r by lia. ring. }
    assert (H10 : 1 <= 10 ^ Z.of_nat (List.length ds)) by (pose proof (Z.pow_pos_nonneg 10 (Z.of_nat (List.length ds)) ltac:(lia) ltac:(lia)); lia).
    rewrite Hv in Hw |- *. pose proof (number_nonneg ds).
    assert (W1 : within (a * 10 + d)) by (apply (counts_below _ _ _ C) with (2 := Hw); nia).
    assert (W0 : within (a * 10)) by (apply (counts_below _ _ _ C) with (2 := W1); lia).
    cbn [fold_left]. unfold num_step at 2, and_then. rewrite (counts_digit _ _ _ C 10), (counts_mul _ _ _ C a), Hs, (counts_digit _ _ _ C d), (counts_add _ _ _ C (a * 10) d) by (auto; lia).
    apply IH; [lia|assumption].
Qed.
Lemma num_value T ch (ops : num_ops T) within phi ds : counts ops within phi -> Forall a_digit ds -> within (number ds) ->
  num_to_decimal ch ops ds = Some (phi (number ds)).
Proof.
  intros C Hd Hw. unfold num_to_decimal. rewrite (counts_digit _ _ _ C 0) by lia.
  rewrite (num_fold T ch ops within phi ds C Hd 0); [|lia|]; rewrite ?Z.mul_0_l, ?Z.add_0_l; auto.
Qed.
Theorem C54_value : forall T verbose ch (ops : num_ops T) within phi l ds rest, counts ops within phi ->
  ds <> [] -> Forall a_digit ds -> ends_number l rest -> within (number ds) ->
  num_decimal verbose ch ops (mkInput l (ds ++ rest)) = Data (mkInput l rest) (phi (number ds)).
Proof.
  intros T verbose ch ops within phi l ds rest C Hne Hd He Hw. rewrite num_decimal_digits by assumption.
  rewrite (num_value T ch ops within phi ds C Hd Hw). reflexivity.
Qed.
Print Assumptions C54_value.
(** A number that is printed is read back. *)
Theorem C54_round_trip : forall T verbose ch (ops : num_ops T) within phi l n rest, counts ops within phi -> ends_number l rest -> within (Z.of_N n) ->
  num_decimal verbose ch ops (mkInput l (print n ++ rest)) = Data (mkInput l rest) (phi (Z.of_N n)).
Proof.
  intros T verbose ch ops within phi l n rest C He Hw. rewrite (C54_value T verbose ch ops within phi); rewrite ?number_print; auto using print_nonempty, print_digits.
Qed.
Print Assumptions C54_round_trip.
(** Where there is no number, the type plays no part: not one operation of it is called (they might all panic). *)
Theorem C54_no_number : forall T verbose ch (ops : num_ops T) l b,
  (match b with [] => True | c :: _ => ~ a_digit c end \/ (l = false /\ Forall a_digit b)) ->
  num_decimal verbose ch ops (mkInput l b) =
  match b with
  | c :: _ => if is_digit c then Incomplete 1 else Error b (err_unexpected verbose)
  | [] => Incomplete 1
  end.
Proof.
  intros T verbose ch ops l b H. destruct b as [|c b].
  - unfold num_decimal, take_while1. simpl. destruct l; reflexivity.
  - destruct H as [H|[-> H]].
    + apply is_digit_false in H. unfold num_decimal, take_while1. simpl. rewrite H. reflexivity.
    + unfold num_decimal, take_while1. cbn [buf last]. pose proof (position_digits (c :: b) [] H) as Hp. rewrite app_nil_r in Hp. rewrite Hp.
      inversion H as [|? ? Hc ?]; subst. apply is_digit_spec in Hc. rewrite Hc. rewrite andb_false_r. reflexivity.
Qed.
Print Assumptions C54_no_number.

(** * Types that calculate alike give the same results: panic for panic, value for value *)
Lemma step_alike T U (R : T -> U -> Prop) ch o o' n a a' : alike R o o' -> is_digit n = true -> both R a a' -> both R (num_step ch o a n) (num_step ch o' a' n).
Proof.
  intros L Hn Ha. unfold num_step. destruct a as [a|], a' as [a'|]; cbn [both and_then] in *; try tauto.
  pose proof (alike_u8 _ _ _ L 10 ltac:(lia)) as H10. destruct (from_u8 o 10), (from_u8 o' 10); cbn [both and_then] in *; try tauto.
  pose proof (alike_mul _ _ _ L _ _ _ _ Ha H10) as Hm. destruct (num_mul o a t), (num_mul o' a' u); cbn [both and_then] in *; try tauto.
  apply is_digit_spec in Hn. unfold a_digit in Hn. destruct (digit_value n) as [d|] eqn:Ed; [|congruence]. destruct (digit_sub ch n d Ed) as [Hs Hb]. rewrite Hs. cbn [and_then].
  pose proof (alike_u8 _ _ _ L d ltac:(lia)) as Hdg. destruct (from_u8 o d), (from_u8 o' d); cbn [both and_then] in *; try tauto.
  apply (alike_add _ _ _ L); assumption.
Qed.
Definition same_outcome {T U} (R : T -> U -> Prop) (x : pres byte T (error byte)) (y : pres byte U (error byte)) : Prop :=
  match x, y with
  | Data i t, Data j u => i = j /\ R t u
  | Error b e, Error c f => b = c /\ e = f
  | Incomplete n, Incomplete m => n = m
  | Panic, Panic | NoFuel, NoFuel => True
  | _, _ => False
  end.
Theorem C54_alike : forall T U (R : T -> U -> Prop) verbose ch (o : num_ops T) (o' : num_ops U), alike R o o' ->
  (forall i, same_outcome R (num_decimal verbose ch o i) (num_decimal verbose ch o' i)) /\
  (forall f f', (forall i, same_outcome R (f i) (f' i)) -> forall i, same_outcome R (num_signed verbose o f i) (num_signed verbose o' f' i)).
Proof.
  intros T U R verbose ch o o' L. split.
  - intros [l b]. destruct (C23_total l b) as [H|(ds & rest & -> & Hne & Hd & He)].
    + rewrite !C54_no_number by assumption. destruct b as [|c b]; cbn; [reflexivity|]. destruct (is_digit c); cbn; auto.
    + rewrite !num_decimal_digits by assumption.
      assert (B : both R (num_to_decimal ch o ds) (num_to_decimal ch o' ds)).
      { unfold num_to_decimal. pose proof (alike_u8 _ _ _ L 0 ltac:(lia)) as H0. revert H0. generalize (from_u8 o 0) (from_u8 o' 0).
        clear - Hd L. induction Hd as [|c ds Hc Hd IH]; intros a a' H; [exact H|]. cbn [fold_left]. apply IH. apply step_alike; auto. apply is_digit_spec. exact Hc. }
      destruct (num_to_decimal ch o ds), (num_to_decimal ch o' ds); cbn in *; tauto.
  - intros f f' Hf [l b]. unfold num_signed.
    pose proof (alike_i8 _ _ _ L 1 ltac:(lia)) as H1. destruct (from_i8 o 1) as [one|] eqn:E1, (from_i8 o' 1) as [one'|] eqn:E1'; cbn [both] in H1; try contradiction; [|exact Logic.I].
    assert (G : forall s s' j, R s s' -> same_outcome R (bind (fun e => e) (@Data byte T (error byte) j s) (fun i sign => map_p (num_mul o sign) (f i)))
                                                        (bind (fun e => e) (@Data byte U (error byte) j s') (fun i sign => map_p (num_mul o' sign) (f' i)))).
    { intros s s' j Hs. cbn [bind]. specialize (Hf j). destruct (f j) as [j1 v1|? ?|?| |], (f' j) as [j2 v2|? ?|?| |]; cbn [same_outcome map_p] in *; try tauto.
      - destruct Hf as [<- Hv]. pose proof (alike_mul _ _ _ L _ _ _ _ Hs Hv) as Hm. destruct (num_mul o s v1), (num_mul o' s' v2); cbn in *; tauto.
      - destruct Hf as [<- <-]. cbn. auto. }
    unfold option_, satisfy. cbn [buf last]. destruct b as [|c b]; cbn [first map_p incomplete].
    + destruct l; [apply G; exact H1|cbn; auto].
    + destruct (byte_eqb c "-" || byte_eqb c "+")%bool; cbn [ret err map_p]; [|apply G; exact H1].
      pose proof (alike_i8 _ _ _ L (if byte_eqb c "+" then 1 else -1) ltac:(destruct (byte_eqb c "+"); lia)) as Hi.
      destruct (from_i8 o (if byte_eqb c "+" then 1 else -1)), (from_i8 o' (if byte_eqb c "+" then 1 else -1)); cbn [both] in Hi; try contradiction; [|exact Logic.I].
      apply G. exact Hi.
Qed.
Print Assumptions C54_alike.

(** * Signs *)
(** Exactly what [signed] does, for any number parser: the sign, if there is one, is read off and multiplied from the left. *)
Theorem C54_signed : forall T verbose (ops : num_ops T) f one l,
  from_i8 ops 1 = Some one ->
  (forall c b, c <> "+"%byte -> c <> "-"%byte -> num_signed verbose ops f (mkInput l (c :: b)) = map_p (num_mul ops one) (f (mkInput l (c :: b)))) /\
  (forall b, num_signed verbose ops f (mkInput l ("+"%byte :: b)) = map_p (num_mul ops one) (f (mkInput l b))) /\
  (forall b, num_signed verbose ops f (mkInput l ("-"%byte :: b)) =
     match from_i8 ops (-1) with Some m => map_p (num_mul ops m) (f (mkInput l b)) | None => Panic end) /\
  num_signed verbose ops f (mkInput l []) = if l then map_p (num_mul ops one) (f (mkInput l [])) else Incomplete 1.
Proof.
  intros T verbose ops f one l H1.
  assert (M : forall U V (r : pres byte U (error byte)) (g : U -> option V), map_err (fun e => e) (map_p g r) = map_p g r).
  { intros U V [i t|b e|n| |] g; cbn [map_p map_err]; try reflexivity. destruct (g t); reflexivity. }
  unfold num_signed. rewrite H1. repeat split.
  - intros c b N1 N2. unfold option_, satisfy. cbn [buf last first].
    replace (byte_eqb c "-") with false by (destruct c; try reflexivity; congruence).
    replace (byte_eqb c "+") with false by (destruct c; try reflexivity; congruence).
    cbn [orb err map_p ret bind]. apply M.
  - intros b. unfold option_, satisfy. cbn [buf last first byte_eqb Byte.eqb orb ret map_p skipn replace]. change (byte_eqb "+" "-" || byte_eqb "+" "+")%bool with true. cbn [ret map_p]. change (byte_eqb "+" "+") with true. cbv iota. rewrite H1. cbn [bind]. apply M.
  - intros b. unfold option_, satisfy. cbn [buf last first]. change (byte_eqb "-" "-" || byte_eqb "-" "+")%bool with true. cbn [ret map_p]. change (byte_eqb "-" "+") with false. cbv iota.
    destruct (from_i8 ops (-1)); [|reflexivity]. cbn [bind]. apply M.
  - unfold option_, satisfy. cbn [buf last first incomplete map_p]. destruct l; [|reflexivity]. cbn [ret bind]. apply M.
Qed.
Print Assumptions C54_signed.
(** For a type without the number 1 it panics, whatever the input: the value taken when there is no sign is made first. *)
Theorem C54_signed_no_one : forall T verbose (ops : num_ops T) f i, from_i8 ops 1 = None -> num_signed verbose ops f i = Panic.
Proof. intros T verbose ops f i H. unfold num_signed. rewrite H. reflexivity. Qed.
Print Assumptions C54_signed_no_one.
Example C54_signed_no_one_case : let ops := mkNum (fun _ => Some 0) (fun _ => None) (fun a b => Some (a + b)) (fun a b => Some (a * b)) in
  num_signed true ops (num_decimal true true ops) (mkInput true ["+"; "1"]%byte) = Panic /\ exists n, num_decimal true true ops (mkInput true ["1"]%byte) = Data (mkInput true []) n.
Proof. vm_compute. split; [reflexivity|]. eexists. reflexivity. Qed.
Theorem C54_signed_value : forall T verbose ch (ops : num_ops T) within phi sg s l ds rest, counts ops within phi -> counts_signs ops within phi ->
  sign_of sg = Some s -> ds <> [] -> Forall a_digit ds -> ends_number l rest -> within (number ds) ->
  num_signed verbose ops (num_decimal verbose ch ops) (mkInput l (sg ++ ds ++ rest)) = Data (mkInput l rest) (phi (s * number ds)).
Proof.
  intros T verbose ch ops within phi sg s l ds rest C S Hs Hne Hd He Hw.
  pose proof (signs_from _ _ _ S 1 (or_introl eq_refl)) as H1. destruct (C54_signed T verbose ops (num_decimal verbose ch ops) (phi 1) l H1) as (Ha & Hb & Hc & _).
  pose proof (C54_value T verbose ch ops within phi l ds rest C Hne Hd He Hw) as V. pose proof (number_nonneg ds) as Hn.
  destruct sg as [|c [|c2 sg]]; cbn [sign_of] in Hs.
  - inversion Hs; subst s. cbn [app]. destruct ds as [|d ds]; [congruence|]. inversion Hd as [|? ? Hd1 ?]; subst. cbn [app]. rewrite Ha.
    + cbn [app] in V. rewrite V. cbn [map_p]. rewrite (signs_mul _ _ _ S 1) by auto. reflexivity.
    + intros ->. apply Hd1. reflexivity.
    + intros ->. apply Hd1. reflexivity.
  - destruct c; try discriminate; inversion Hs; subst s; cbn [app].
    + rewrite Hb, V. cbn [map_p]. rewrite (signs_mul _ _ _ S 1) by auto. reflexivity.
    + rewrite Hc, (signs_from _ _ _ S (-1)), V by auto. cbn [map_p]. rewrite (signs_mul _ _ _ S (-1)) by auto. reflexivity.
  - destruct c; discriminate.
Qed.
Print Assumptions C54_signed_value.

(** * Some types *)
Lemma big_counts : counts big_num (fun _ => True) (fun z => z) /\ counts_signs big_num (fun _ => True) (fun z => z).
Proof. split; constructor; auto. Qed.
(** Integers of any size: every numeral is read exactly, with its sign, in every build. *)
Theorem C54_big : forall verbose ch sg s l ds rest, sign_of sg = Some s -> ds <> [] -> Forall a_digit ds -> ends_number l rest ->
  num_signed verbose big_num (num_decimal verbose ch big_num) (mkInput l (sg ++ ds ++ rest)) = Data (mkInput l rest) (s * number ds).
Proof. intros. apply (C54_signed_value Z verbose ch big_num (fun _ => True) (fun z => z)); auto; apply big_counts. Qed.
Print Assumptions C54_big.
(** [Wrapping]: modulo 2^width, debug builds included. *)
Theorem C54_wrapping : forall verbose ch T sg s l ds rest, admits_u8 T -> sign_of sg = Some s -> ds <> [] -> Forall a_digit ds -> ends_number l rest ->
  exists v, num_signed verbose (wrapping_num T) (num_decimal verbose ch (wrapping_num T)) (mkInput l (sg ++ ds ++ rest)) = Data (mkInput l rest) v /\
    reduced (width T) (int_min T) (int_max T) (s * number ds) v.
Proof.
  intros verbose ch T sg s l ds rest HT Hs Hne Hd He. exists (int_wrap T (s * number ds)). split.
  - assert (A : forall a b, int_wrap T (int_wrap T a + int_wrap T b) = int_wrap T (a + b)).
    { intros a b. apply wrap_ext. rewrite Zplus_mod, !wrap_mod, <- Zplus_mod by assumption. reflexivity. }
    assert (M : forall a b, int_wrap T (int_wrap T a * int_wrap T b) = int_wrap T (a * b)).
    { intros a b. apply wrap_ext. rewrite Zmult_mod, !wrap_mod, <- Zmult_mod by assumption. reflexivity. }
    apply (C54_signed_value Z verbose ch (wrapping_num T) (fun _ => True) (int_wrap T)); auto; constructor; auto; intros; cbn [num_add num_mul wrapping_num]; rewrite ?A, ?M; reflexivity.
  - split; [apply wrap_in_range; assumption|apply wrap_mod; assumption].
Qed.
Print Assumptions C54_wrapping.
(** Saturating types: the number, or the greatest there is. *)
Theorem C54_saturating : forall verbose ch m l ds rest, 10 <= m -> ds <> [] -> Forall a_digit ds -> ends_number l rest ->
  num_decimal verbose ch (saturating_num m) (mkInput l (ds ++ rest)) = Data (mkInput l rest) (Z.min (number ds) m).
Proof.
  intros verbose ch m l ds rest Hm Hne Hd He.
  apply (C54_value Z verbose ch (saturating_num m) (fun _ => True) (fun z => Z.min z m)); auto; constructor; auto; intros; cbn [num_add num_mul saturating_num]; rewrite ?(Z.min_l 10 m Hm); f_equal; lia.
Qed.
Print Assumptions C54_saturating.
(** The "round trip of everything a type can hold" fails for types whose [*] does not give [-1 * n] for the least number: C24_least_refuted.  And a type
    in which [from_u8] of ten is not ten times one reads rubbish: the arithmetic laws are needed. *)
Theorem C54_laws_refuted : ~ (forall T verbose ch (ops : num_ops T) phi l ds rest, (forall d, 0 <= d <= 10 -> from_u8 ops d = Some (phi d)) ->
  ds <> [] -> Forall a_digit ds -> ends_number l rest -> exists v, num_decimal verbose ch ops (mkInput l (ds ++ rest)) = Data (mkInput l rest) v /\ v = phi (number ds)).
Proof.
  intros H. destruct (H Z true true (mkNum Some Some (fun a b => Some (Z.max a b)) (fun a b => Some (a * b))) (fun z => z) true (bytes "11"%string) []) as (v & Hv & E); auto.
  - discriminate.
  - repeat constructor; discriminate.
  - reflexivity.
  - vm_compute in Hv. inversion Hv; subst v. discriminate.
Qed.
Print Assumptions C54_laws_refuted.

(** A type with four significant bits, rounding down above 16: it counts up to 16 only, and numbers up to 16 are read exactly. *)
Definition coarse (z : Z) : Z := if z <=? 16 then z else 2 * (z / 2).
Definition coarse_num : num_ops Z := mkNum (fun z => Some (coarse z)) (fun z => Some (coarse z)) (fun a b => Some (coarse (a + b))) (fun a b => Some (coarse (a * b))).
Example C54_float_case : counts coarse_num (fun z => z <= 16) (fun z => z) /\
  num_decimal true true coarse_num (mkInput true (bytes "0016"%string)) = Data (mkInput true []) 16 /\
  num_decimal true true coarse_num (mkInput true (bytes "17"%string)) = Data (mkInput true []) 16.
Proof.
  split; [|split; vm_compute; reflexivity]. constructor.
  - intros; lia.
  - intros d Hd. cbn [from_u8 coarse_num]. unfold coarse. destruct (Z.leb_spec d 16); [reflexivity|lia].
  - intros a d Ha Hd Hw. cbn [num_add coarse_num]. unfold coarse. destruct (Z.leb_spec (a + d) 16); [reflexivity|lia].
  - intros a Ha Hw. cbn [num_mul coarse_num]. unfold coarse. destruct (Z.leb_spec (a * 10) 16); [reflexivity|lia].
Qed.
Example C54_big_case : num_signed true big_num (num_decimal true true big_num) (mkInput false (bytes "-123456789012345678901234567890;"%string)) =
  Data (mkInput false (bytes ";"%string)) (-123456789012345678901234567890).
Proof. vm_compute. reflexivity. Qed.
(** Multiplication need not commute: the sign is the left factor. *)
Example C54_signed_case : num_signed true (mkNum (fun z => Some [z]) (fun z => Some [z]) (fun a b => Some (a ++ b)) (fun a b => Some (a ++ b))) (fun i => Data i [7]) (mkInput true (bytes "-x"%string)) =
  Data (mkInput true (bytes "x"%string)) [-1; 7].
Proof. vm_compute. reflexivity. Qed.
(** Integers that add and multiply the other way round are alike. *)
Example C54_alike_case : alike eq big_num (mkNum Some Some (fun a b => Some (b + a)) (fun a b => Some (b * a))).
Proof. constructor; intros; subst; cbn [both big_num from_u8 from_i8 num_add num_mul]; auto; lia. Qed.
