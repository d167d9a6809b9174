(** Property theorems C60: the type bounds of the number parsers. *)
From Coq Require Import List Bool Arith ZArith Lia.
From Coq.Init Require Import Byte.
From Coq.Strings Require Import Byte.
From Coq Require Import List.
From Verif Require Import Base Parsers Combinators SpecBase BaseProofs Ascii SpecAscii AsciiProofs PropsAscii Numbers SpecNumbers PropsNumbers Bounds.
Import ListNotations.
Open Scope Z_scope.

(** The bounds hold exactly for the types all values of [u8] (of [i8]) belong to. *)
Lemma pow_le n m : 0 <= n -> (2 ^ n <= 2 ^ m <-> n <= m).
Proof.
  intros Hn. split; intros H; [|apply Z.pow_le_mono_r; lia].
  destruct (Z.lt_trichotomy m 0) as [Hm|[Hm|Hm]]; [rewrite (Z.pow_neg_r 2 m) in H by lia; pose proof (Z.pow_pos_nonneg 2 n); lia|..].
  - subst m. apply (Z.pow_le_mono_r_iff 2); lia.
  - apply (Z.pow_le_mono_r_iff 2); lia.
Qed.
Theorem C60_decimal : forall T, 0 < width T -> (decimal_compiles T = true <-> (forall n, 0 <= n < 256 -> int_min T <= n <= int_max T)).
Proof.
  intros [w s] Hw. unfold decimal_compiles, no_error, int_min, int_max, u8. cbn [width is_signed] in *. destruct s.
  - rewrite Z.ltb_lt. pose proof (pow_le 8 (w - 1) ltac:(lia)) as P. change (2 ^ 8) with 256 in P. split; intros H.
    + intros n Hn. lia.
    + specialize (H 255 ltac:(lia)). lia.
  - rewrite Z.leb_le. pose proof (pow_le 8 w ltac:(lia)) as P. change (2 ^ 8) with 256 in P. split; intros H.
    + intros n Hn. lia.
    + specialize (H 255 ltac:(lia)). lia.
Qed.
Theorem C60_signed : forall T, 0 < width T -> (signed_compiles T = true <-> (forall n, -128 <= n < 128 -> int_min T <= n <= int_max T)).
Proof.
  intros [w s] Hw. unfold signed_compiles, no_error, int_min, int_max, i8. cbn [width is_signed] in *. destruct s.
  - rewrite Z.leb_le. pose proof (pow_le 7 (w - 1) ltac:(lia)) as P. change (2 ^ 7) with 128 in P. split; intros H.
    + intros n Hn. lia.
    + specialize (H 127 ltac:(lia)). lia.
  - split; [discriminate|]. intros H. specialize (H (-1) ltac:(lia)). lia.
Qed.
Print Assumptions C60_decimal.
Print Assumptions C60_signed.

(** Of Rust's integer types [signed(i, decimal)] takes the signed ones from [i16] on, [decimal] takes all but [i8]. *)
Theorem C60_primitive : forall T, In (width T) [8; 16; 32; 64] ->
  (signed_decimal_compiles T = true <-> is_signed T = true /\ 16 <= width T) /\
  (decimal_compiles T = true <-> T <> i8) /\ (signed_compiles T = true <-> is_signed T = true).
Proof.
  intros [w s] H. cbn [width is_signed] in *. unfold signed_decimal_compiles, signed_compiles, decimal_compiles, no_error, i8, u8. cbn [width is_signed].
  destruct H as [<-|[<-|[<-|[<-|[]]]]]; destruct s; cbn; repeat split; try congruence; try lia; try (intros [? ?]; congruence || lia); auto.
Qed.
Print Assumptions C60_primitive.

(** A program that compiles needs no care with conversions: with conv's checked conversions in it, it does what the model of C23 and C24 does; no [unwrap_ok] meets an error. *)
Lemma step_same T ch : (forall z, 0 <= z < 256 -> value_from T z = Some z) -> forall ds a,
  fold_left (num_step ch (conv_num T ch)) ds a = fold_left (num_step ch (int_num T ch)) ds a.
Proof.
  intros Hv. induction ds as [|c ds IH]; intros a; [reflexivity|]. cbn [fold_left]. rewrite IH. f_equal.
  unfold num_step, and_then, conv_num, int_num. cbn [from_u8 num_add num_mul]. destruct a as [a|]; [|reflexivity]. rewrite (Hv 10) by lia.
  destruct (int_result T ch (a * 10)); [|reflexivity]. destruct (int_result u8 ch _) as [d|] eqn:E; [|reflexivity]. rewrite Hv; [reflexivity|].
  unfold int_result in E. destruct ((int_min u8 <=? _) && (_ <=? int_max u8))%bool eqn:R.
  - inversion E; subst. apply andb_prop in R. destruct R as [R1 R2]. apply Z.leb_le in R1, R2. unfold int_min in R1. unfold int_max in R2. cbn in R1, R2 |- *. lia.
  - destruct ch; [discriminate|]. inversion E. unfold int_wrap. cbn [is_signed u8 width]. change (2 ^ 8) with 256. apply Z.mod_pos_bound. lia.
Qed.
Theorem C60_exact : forall verbose checked T, 0 < width T ->
  (decimal_compiles T = true -> forall i, num_decimal verbose checked (conv_num T checked) i = decimal verbose checked T i) /\
  (signed_compiles T = true -> forall f i, num_signed verbose (conv_num T checked) f i = signed verbose checked T f i).
Proof.
  intros verbose ch T Hw. split; intros Hc.
  - assert (Hv : forall z, 0 <= z < 256 -> value_from T z = Some z).
    { intros z Hz. pose proof (proj1 (C60_decimal T Hw) Hc z Hz) as [H1 H2]. unfold value_from. apply Z.leb_le in H1, H2. rewrite H1, H2. reflexivity. }
    intros i. rewrite <- (proj1 (C54_instance verbose ch T)). unfold num_decimal. destruct (take_while1 verbose is_digit i); try reflexivity. cbn [bind].
    unfold num_to_decimal. cbn [from_u8 conv_num int_num]. rewrite (Hv 0) by lia. rewrite (step_same T ch Hv). reflexivity.
  - assert (Hv : forall z, -128 <= z < 128 -> value_from T z = Some z).
    { intros z Hz. pose proof (proj1 (C60_signed T Hw) Hc z Hz) as [H1 H2]. unfold value_from. apply Z.leb_le in H1, H2. rewrite H1, H2. reflexivity. }
    intros f i. rewrite <- (proj2 (C54_instance verbose ch T)). unfold num_signed. cbn [from_i8 conv_num int_num]. rewrite (Hv 1) by lia.
    unfold option_, satisfy. destruct (first (buf i)) as [c|]; [|reflexivity]. destruct (byte_eqb c "-" || byte_eqb c "+")%bool; [|reflexivity].
    cbn [map_p ret]. rewrite (Hv (if byte_eqb c "+" then 1 else -1)); [reflexivity|]. destruct (byte_eqb c "+"); lia.
Qed.
Print Assumptions C60_exact.
(** So whatever compiles is covered by C23 and C24, which suppose [admits_u8]. *)
Theorem C60_covered : forall T, decimal_compiles T = true <-> admits_u8 T.
Proof.
  intros [w s]. unfold decimal_compiles, no_error, admits_u8, u8. cbn [width is_signed]. destruct s; rewrite ?Z.ltb_lt, ?Z.leb_le; lia.
Qed.
Print Assumptions C60_covered.

(** [signed] rejects no type that would do: the minus sign has no value there. *)
Theorem C60_rejected : forall verbose checked T f l b, In (width T) [8; 16; 32; 64] -> signed_compiles T = false ->
  num_signed verbose (conv_num T checked) f (mkInput l ("-"%byte :: b)) = Panic.
Proof.
  intros verbose ch T f l b HT Hc. assert (Hs : is_signed T = false) by (destruct (is_signed T) eqn:E; [|reflexivity]; apply (C60_primitive T HT) in E; congruence).
  unfold num_signed. cbn [from_i8 conv_num].
  assert (E1 : value_from T 1 = Some 1).
  { unfold value_from, int_min, int_max. rewrite Hs. pose proof (Z.pow_le_mono_r 2 1 (width T)) as P. cbn in HT. change (2 ^ 1) with 2 in P. rewrite (proj2 (Z.leb_le 1 _)) by lia. reflexivity. }
  rewrite E1. unfold option_, satisfy. cbn. assert (E2 : value_from T (-1) = None) by (unfold value_from, int_min; rewrite Hs; reflexivity).
  rewrite E2. reflexivity.
Qed.
(** [decimal] does reject one: [i8] would hold the digits and the ten. *)
Theorem C60_i8_refuted : decimal_compiles i8 = false /\ forall verbose checked l ds rest, ds <> [] -> Forall a_digit ds -> ends_number l rest -> number ds < 128 ->
  num_decimal verbose checked (conv_num i8 checked) (mkInput l (ds ++ rest)) = Data (mkInput l rest) (number ds).
Proof.
  split; [reflexivity|]. intros verbose ch l ds rest Hne Hd He Hn.
  apply (C54_value Z verbose ch (conv_num i8 ch) (fun z => z < 128) (fun z => z)); auto.
  assert (Hr : forall z, 0 <= z < 128 -> int_result i8 ch z = Some z).
  { intros z Hz. unfold int_result. replace ((int_min i8 <=? z) && (z <=? int_max i8))%bool with true; [reflexivity|]. symmetry. apply andb_true_intro. split; apply Z.leb_le; cbn; lia. }
  split; cbn [from_u8 num_add num_mul conv_num].
  - lia.
  - intros d Hd'. unfold value_from. replace ((int_min i8 <=? d) && (d <=? int_max i8))%bool with true; [reflexivity|]. symmetry. apply andb_true_intro. split; apply Z.leb_le; cbn; lia.
  - intros a d Ha Hd' Hw. apply Hr. lia.
  - intros a Ha Hw. apply Hr. lia.
Qed.
Print Assumptions C60_rejected.
Print Assumptions C60_i8_refuted.

(** tests/compile-fail/ascii_signed_unsigned_type.rs, type1.rs, type2.rs, type3.rs, type4.rs: [u8], [u16], [u32], [u64] and [i8]; the conversion that fails is the one named there. *)
Example C60_compile_fail :
  forallb (fun w => negb (no_error (mkInt w false) i8) && negb (signed_decimal_compiles (mkInt w false))) [8; 16; 32; 64] = true /\
  no_error i8 u8 = false /\ no_error i8 i8 = true /\ signed_decimal_compiles i8 = false.
Proof. repeat split. Qed.
(** src/ascii.rs:118 and 145: [i16] and [u8] are used there; a case of each theorem. *)
Example C60_case : signed_decimal_compiles (mkInt 16 true) = true /\ decimal_compiles u8 = true /\ signed_compiles u8 = false /\
  num_signed true (conv_num (mkInt 16 true) true) (num_decimal true true (conv_num (mkInt 16 true) true)) (mkInput true ["-"; "1"; "2"; "3"]%byte) = Data (mkInput true []) (-123) /\
  num_decimal true true (conv_num i8 true) (mkInput true ["1"; "2"; "7"]%byte) = Data (mkInput true []) 127.
Proof. repeat split. Qed.
