From Coq Require Import List Bool Arith ZArith Lia Decimal DecimalN.
From Coq.Init Require Import Byte.
From Coq.Strings Require Import Byte.
From Verif Require Import Base Parsers Combinators SpecBase BaseProofs Ascii SpecAscii.
Import ListNotations.
Open Scope Z_scope.

(** Types that hold every [u8]. *)
Definition admits_u8 (T : int_ty) : Prop := if is_signed T then 9 <= width T else 8 <= width T.

Lemma is_digit_spec : forall c, is_digit c = true <-> a_digit c.
Proof. intros c. unfold a_digit. destruct c; vm_compute; split; congruence. Qed.

Lemma is_digit_false : forall c, is_digit c = false <-> ~ a_digit c.
Proof. intros c. rewrite <- is_digit_spec. destruct (is_digit c); split; congruence. Qed.

Lemma pow_half : forall w, 1 <= w -> 2 ^ w = 2 * 2 ^ (w - 1).
Proof. intros w H. replace w with (Z.succ (w - 1)) at 1 by lia. rewrite Z.pow_succ_r by lia. reflexivity. Qed.

Lemma wrap_in_range : forall T z, admits_u8 T -> int_min T <= int_wrap T z <= int_max T.
Proof.
  intros T z H. unfold admits_u8, int_min, int_max, int_wrap in *. destruct (is_signed T).
  - pose proof (pow_half (width T) ltac:(lia)). assert (0 < 2 ^ (width T - 1)) by (apply Z.pow_pos_nonneg; lia).
    pose proof (Z.mod_pos_bound (z + 2 ^ (width T - 1)) (2 ^ width T)). lia.
  - assert (0 < 2 ^ width T) by (apply Z.pow_pos_nonneg; lia). pose proof (Z.mod_pos_bound z (2 ^ width T)). lia.
Qed.

Lemma wrap_fits : forall T z, admits_u8 T -> int_min T <= z <= int_max T -> int_wrap T z = z.
Proof.
  intros T z H. unfold admits_u8, int_min, int_max, int_wrap in *. destruct (is_signed T); intros Hz.
  - pose proof (pow_half (width T) ltac:(lia)). rewrite Z.mod_small; lia.
  - rewrite Z.mod_small; lia.
Qed.

Lemma wrap_mod : forall T z, admits_u8 T -> int_wrap T z mod 2 ^ width T = z mod 2 ^ width T.
Proof.
  intros T z H. unfold admits_u8, int_wrap in *. destruct (is_signed T).
  - rewrite Zminus_mod_idemp_l. f_equal. lia.
  - apply Zmod_mod.
Qed.

Lemma wrap_ext : forall T z z', z mod 2 ^ width T = z' mod 2 ^ width T -> int_wrap T z = int_wrap T z'.
Proof.
  intros T z z' H. unfold int_wrap. destruct (is_signed T); auto.
  f_equal. rewrite <- (Zplus_mod_idemp_l z), <- (Zplus_mod_idemp_l z'), H. reflexivity.
Qed.

Lemma result_unchecked : forall T z, admits_u8 T -> int_result T false z = Some (int_wrap T z).
Proof.
  intros T z H. unfold int_result. destruct ((int_min T <=? z) && (z <=? int_max T)) eqn:E; auto.
  apply andb_prop in E. destruct E as [E1 E2]. apply Z.leb_le in E1. apply Z.leb_le in E2. rewrite wrap_fits; auto.
Qed.

Lemma result_fits : forall T b z, int_min T <= z <= int_max T -> int_result T b z = Some z.
Proof.
  intros T b z H. unfold int_result. destruct (Z.leb_spec (int_min T) z); destruct (Z.leb_spec z (int_max T)); auto; lia.
Qed.

Lemma result_overflow : forall T z, ~ (int_min T <= z <= int_max T) -> int_result T true z = None.
Proof.
  intros T z H. unfold int_result. destruct (Z.leb_spec (int_min T) z); destruct (Z.leb_spec z (int_max T)); auto; lia.
Qed.

Lemma min_max : forall T, admits_u8 T -> int_min T <= 0 /\ 255 <= int_max T.
Proof.
  intros T H. unfold admits_u8, int_min, int_max in *. destruct (is_signed T).
  - assert (2 ^ 8 <= 2 ^ (width T - 1)) by (apply Z.pow_le_mono_r; lia). change (2 ^ 8) with 256 in *. lia.
  - assert (2 ^ 8 <= 2 ^ width T) by (apply Z.pow_le_mono_r; lia). change (2 ^ 8) with 256 in *. lia.
Qed.

Lemma digit_sub : forall ch c d, digit_value c = Some d ->
  int_result u8 ch (Z.of_N (code c) - Z.of_N (code "0")) = Some d /\ 0 <= d <= 9.
Proof. intros ch c d H. destruct c; try discriminate H; injection H as <-; (split; [reflexivity|lia]). Qed.

Lemma step_none : forall ch T ds, fold_left (to_decimal_step ch T) ds None = None.
Proof. induction ds; auto. Qed.

Lemma number_nonneg : forall ds, 0 <= number ds.
Proof.
  induction ds as [|c r IH]; simpl; [lia|]. destruct (digit_value c) as [d|] eqn:Hd; [|lia].
  destruct (digit_sub true c d Hd) as [_ Hb]. assert (0 <= 10 ^ Z.of_nat (length r)) by (apply Z.pow_nonneg; lia). nia.
Qed.

Lemma fold_number : forall T ch ds a, admits_u8 T -> Forall a_digit ds -> 0 <= a -> (ch = true -> a <= int_max T) ->
  fold_left (to_decimal_step ch T) ds (int_result T ch a) =
  int_result T ch (a * 10 ^ Z.of_nat (length ds) + number ds).
Proof.
  intros T ch ds. induction ds as [|c r IH]; intros a HT Hd Ha Hm.
  - cbn [fold_left number length]. f_equal. change (Z.of_nat 0) with 0. rewrite Z.pow_0_r. lia.
  - inversion Hd; subst. cbn [fold_left]. unfold a_digit in H1. destruct (digit_value c) as [d|] eqn:Hc; [|congruence].
    destruct (digit_sub ch c d Hc) as [Hsub Hd9]. pose proof (min_max T HT) as [Hmin Hmax].
    assert (Hnum : a * 10 ^ Z.of_nat (length (c :: r)) + number (c :: r) = (a * 10 + d) * 10 ^ Z.of_nat (length r) + number r).
    { cbn [number length]. rewrite Hc. rewrite Nat2Z.inj_succ, Z.pow_succ_r by lia. lia. }
    rewrite Hnum. assert (Hp : 1 <= 10 ^ Z.of_nat (length r)) by (apply (Z.pow_le_mono_r 10 0); lia). pose proof (number_nonneg r) as Hr.
    destruct ch.
    + specialize (Hm eq_refl). rewrite (result_fits T true a) by lia. unfold to_decimal_step at 2.
      destruct (Z_le_gt_dec (a * 10 + d) (int_max T)) as [Hle|Hgt].
      * rewrite (result_fits T true (a * 10)) by lia. rewrite Hsub. apply IH; auto; lia.
      * rewrite (result_overflow T ((a * 10 + d) * _ + _)) by nia.
        assert (Hn : match int_result T true (a * 10) with None => None | Some m =>
                  match int_result u8 true (Z.of_N (code c) - Z.of_N (code "0")) with None => None | Some d => int_result T true (m + d) end end = None).
        { destruct (Z_le_gt_dec (a * 10) (int_max T)).
          - rewrite (result_fits T true (a * 10)) by lia. rewrite Hsub. apply result_overflow. lia.
          - rewrite (result_overflow T (a * 10)) by lia. reflexivity. }
        rewrite Hn. apply step_none.
    + rewrite (result_unchecked T a HT). unfold to_decimal_step at 2. rewrite (result_unchecked T (_ * 10) HT), Hsub.
      rewrite (result_unchecked T (_ + d) HT).
      replace (Some (int_wrap T (int_wrap T (int_wrap T a * 10) + d))) with (int_result T false (a * 10 + d)); [apply IH; auto; try lia; congruence|].
      rewrite result_unchecked by assumption. f_equal. apply wrap_ext.
      rewrite <- (Zplus_mod_idemp_l (int_wrap T (int_wrap T a * 10))), wrap_mod, Zplus_mod_idemp_l by assumption.
      rewrite <- (Zplus_mod_idemp_l (int_wrap T a * 10)), <- (Zmult_mod_idemp_l (int_wrap T a)), wrap_mod, Zmult_mod_idemp_l, Zplus_mod_idemp_l by assumption.
      reflexivity.
Qed.

Lemma to_decimal_number : forall T ch ds, admits_u8 T -> Forall a_digit ds ->
  to_decimal ch T ds = int_result T ch (number ds).
Proof.
  intros T ch ds HT Hd. pose proof (min_max T HT). unfold to_decimal. rewrite <- (result_fits T ch 0) by lia.
  rewrite fold_number; auto; try lia.
Qed.

(** ** Taking the digits *)

Lemma position_digits : forall ds rest, Forall a_digit ds ->
  position (fun c => Bool.eqb (is_digit c) false) (ds ++ rest) =
  match rest with
  | [] => None
  | c :: _ => if is_digit c then option_map (Nat.add (length ds)) (position (fun c => Bool.eqb (is_digit c) false) rest) else Some (length ds)
  end.
Proof.
  induction ds as [|c r IH]; intros rest Hd.
  - destruct rest as [|c r]; auto. simpl. destruct (is_digit c); auto. simpl. destruct (position _ r); auto.
  - inversion Hd; subst. simpl. apply is_digit_spec in H1. rewrite H1. simpl. rewrite IH by assumption.
    destruct rest as [|x rest]; auto. destruct (is_digit x); auto. destruct (position _ (x :: rest)); auto.
Qed.

Lemma take_digits : forall verbose l ds rest, ds <> [] -> Forall a_digit ds -> ends_number l rest ->
  take_while1 verbose is_digit (mkInput l (ds ++ rest)) = Data (mkInput l rest) ds.
Proof.
  intros verbose l ds rest Hne Hd He. unfold take_while1. cbn [buf last]. rewrite position_digits by assumption.
  destruct rest as [|c rest].
  - rewrite app_nil_r. simpl in He. subst. destruct ds; [congruence|]. simpl. reflexivity.
  - simpl in He. apply is_digit_false in He. rewrite He. destruct ds as [|d ds]; [congruence|].
    cbn [length]. change (S (length ds)) with (length (d :: ds)).
    rewrite firstn_app, skipn_app, firstn_all, skipn_all, Nat.sub_diag. simpl. rewrite app_nil_r. reflexivity.
Qed.

Lemma decimal_char : forall verbose ch T l ds rest, admits_u8 T -> ds <> [] -> Forall a_digit ds -> ends_number l rest ->
  decimal verbose ch T (mkInput l (ds ++ rest)) =
  match int_result T ch (number ds) with Some v => Data (mkInput l rest) v | None => Panic end.
Proof.
  intros verbose ch T l ds rest HT Hne Hd He. unfold decimal. rewrite take_digits by assumption. cbn [bind].
  rewrite to_decimal_number by assumption. destruct (int_result T ch (number ds)); reflexivity.
Qed.

Lemma decimal_other : forall verbose ch T l b,
  (match b with [] => True | c :: _ => ~ a_digit c end \/ (l = false /\ Forall a_digit b)) ->
  decimal verbose ch T (mkInput l b) =
  match b with
  | c :: _ => if is_digit c then Incomplete 1 else Error b (err_unexpected verbose)
  | [] => Incomplete 1
  end.
Proof.
  intros verbose ch T l b H. destruct b as [|c b].
  - unfold decimal, take_while1. simpl. destruct l; reflexivity.
  - destruct H as [H|[-> H]].
    + apply is_digit_false in H. unfold decimal, take_while1. simpl. rewrite H. reflexivity.
    + unfold decimal, take_while1. cbn [buf last]. pose proof (position_digits (c :: b) [] H) as Hp. rewrite app_nil_r in Hp. rewrite Hp.
      inversion H; subst. apply is_digit_spec in H2. rewrite H2. rewrite andb_false_r. reflexivity.
Qed.

(** ** Signs *)

Definition sign_of (s : list byte) : option Z :=
  match s with
  | [] => Some 1
  | ["+"%byte] => Some 1
  | ["-"%byte] => Some (-1)
  | _ => None
  end.

Lemma digit_not_sign : forall c, a_digit c -> (byte_eqb c "-" || byte_eqb c "+")%bool = false.
Proof. intros c H. apply is_digit_spec in H. destruct c; vm_compute in *; congruence. Qed.

Lemma signed_char : forall verbose ch T sg s l ds rest, admits_u8 T -> sign_of sg = Some s -> ds <> [] -> Forall a_digit ds -> ends_number l rest ->
  signed verbose ch T (decimal verbose ch T) (mkInput l (sg ++ ds ++ rest)) =
  match int_result T ch (number ds) with
  | Some v => match int_result T ch (s * v) with Some v => Data (mkInput l rest) v | None => Panic end
  | None => Panic
  end.
Proof.
  intros verbose ch T sg s l ds rest HT Hs Hne Hd He. unfold signed.
  assert (Hopt : option_ (fun i => map (fun s => if byte_eqb s "+" then 1 else (-1)) (satisfy verbose (fun c => byte_eqb c "-" || byte_eqb c "+")%bool i)) 1
     (mkInput l (sg ++ ds ++ rest)) = Data (mkInput l (ds ++ rest)) s).
  { destruct sg as [|c [|c2 sg]]; simpl in Hs.
    - inversion Hs; subst. destruct ds as [|d ds]; [congruence|]. inversion Hd; subst.
      unfold option_, satisfy. simpl. rewrite digit_not_sign by assumption. reflexivity.
    - destruct c; try discriminate; inversion Hs; subst; reflexivity.
    - destruct c; discriminate. }
  rewrite Hopt. cbn [bind]. rewrite decimal_char by assumption. destruct (int_result T ch (number ds)) as [v|]; [|reflexivity].
  destruct (int_result T ch (s * v)); reflexivity.
Qed.

(** ** Printing *)

Lemma spell_digits : forall u, Forall a_digit (spell u).
Proof. induction u; simpl; constructor; auto; discriminate. Qed.

Lemma spell_length : forall u, length (spell u) = nb_digits u.
Proof. induction u; simpl; auto. Qed.

Lemma of_uint_acc_number : forall u acc, Zpos (Pos.of_uint_acc u acc) = Zpos acc * 10 ^ Z.of_nat (length (spell u)) + number (spell u).
Proof.
  induction u; intros acc; cbn [Pos.of_uint_acc spell number digit_value length];
    try (rewrite IHu, Nat2Z.inj_succ, Z.pow_succ_r by lia; lia).
  change (Z.of_nat 0) with 0. rewrite Z.pow_0_r. lia.
Qed.

Lemma of_uint_number : forall u, Z.of_N (N.of_uint u) = number (spell u).
Proof.
  unfold N.of_uint. induction u; cbn [Pos.of_uint spell number digit_value]; try (cbn [Z.of_N]; rewrite of_uint_acc_number; lia); auto.
Qed.

Lemma number_print : forall n, number (print n) = Z.of_N n.
Proof. intros n. unfold print. rewrite <- of_uint_number, DecimalN.Unsigned.of_to. reflexivity. Qed.

Lemma print_nonempty : forall n, print n <> [].
Proof.
  intros n H. assert (Hu : N.to_uint n = Nil) by (unfold print in H; destruct (N.to_uint n); auto; discriminate).
  destruct n as [|p]; [discriminate|].
  assert (Hz : N.of_uint (N.to_uint (Npos p)) = N.of_uint Nil) by (rewrite Hu; reflexivity).
  rewrite DecimalN.Unsigned.of_to in Hz. discriminate.
Qed.

Lemma print_digits : forall n, Forall a_digit (print n).
Proof. intros n. apply spell_digits. Qed.

(** No superfluous zero. *)
Lemma print_no_leading_zero : forall n r, print n = "0"%byte :: r -> n = 0%N.
Proof.
  intros n r H. unfold print in H. destruct (N.to_uint n) as [|u|u|u|u|u|u|u|u|u|u] eqn:Hu; try discriminate H.
  pose proof (DecimalN.Unsigned.to_of (D0 u)) as Hn. rewrite <- Hu in Hn at 1. rewrite DecimalN.Unsigned.of_to in Hn.
  rewrite Hu in Hn. unfold unorm in Hn. destruct (nzhead (D0 u)) eqn:Hz; try (exfalso; clear - Hn Hz; simpl in Hz;
    assert (forall v w, nzhead v <> D0 w) as Hnz by (induction v; intros; simpl; try discriminate; auto);
    inversion Hn; subst; eapply Hnz; eauto; fail); try discriminate.
  inversion Hn; subst. apply (f_equal N.of_uint) in Hu. rewrite DecimalN.Unsigned.of_to in Hu. exact Hu.
Qed.
