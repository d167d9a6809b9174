(** Property theorems C22 - C24. *)
From Coq Require Import List Bool Arith ZArith Lia.
From Coq.Init Require Import Byte.
From Coq.Strings Require Import Byte.
From Coq.Strings Require Import String.
From Coq Require Import List.
From Verif Require Import Base Parsers Combinators SpecBase BaseProofs Ascii SpecAscii AsciiProofs.
Import ListNotations.
Open Scope Z_scope.

(** * C22: classification of all bytes *)
Definition lower : list byte := bytes "abcdefghijklmnopqrstuvwxyz"%string.
Definition upper : list byte := bytes "ABCDEFGHIJKLMNOPQRSTUVWXYZ"%string.
Definition digits : list byte := bytes "0123456789"%string.

Ltac bytewise := let c := fresh in intros c; destruct c; vm_compute;
  (split; [intros; first [discriminate | tauto] | intros; first [reflexivity | exfalso; repeat match goal with H : _ \/ _ |- _ => destruct H end; congruence]]).

Theorem C22_lowercase : forall c, is_lowercase c = true <-> In c lower. Proof. bytewise. Qed.
Theorem C22_uppercase : forall c, is_uppercase c = true <-> In c upper. Proof. bytewise. Qed.
Theorem C22_digit : forall c, is_digit c = true <-> In c digits. Proof. bytewise. Qed.
Theorem C22_alpha : forall c, is_alpha c = true <-> In c (lower ++ upper). Proof. bytewise. Qed.
Theorem C22_alphanumeric : forall c, is_alphanumeric c = true <-> In c (lower ++ upper ++ digits). Proof. bytewise. Qed.
(** TAB, LF, VT, FF, CR, space *)
Theorem C22_whitespace : forall c, is_whitespace c = true <-> In c [x09; x0a; x0b; x0c; x0d; x20]. Proof. bytewise. Qed.
Theorem C22_horizontal_space : forall c, is_horizontal_space c = true <-> In c [x09; x20]. Proof. bytewise. Qed.
Theorem C22_end_of_line : forall c, is_end_of_line c = true <-> In c [x0a; x0d]. Proof. bytewise. Qed.
(** [digit] and [skip_whitespace] use them. *)
Theorem C22_digit_parser : forall verbose l b,
  digit verbose (mkInput l b) =
  match b with
  | [] => Incomplete 1
  | c :: r => if in_dec Byte.byte_eq_dec c digits then Data (mkInput l r) c else Error b (err_unexpected verbose)
  end.
Proof.
  intros verbose l [|c r]; [reflexivity|]. unfold digit, satisfy. cbn [buf first].
  destruct (in_dec Byte.byte_eq_dec c digits) as [H|H].
  - apply C22_digit in H. rewrite H. reflexivity.
  - destruct (is_digit c) eqn:E; [exfalso; apply H; apply C22_digit; exact E|]. reflexivity.
Qed.
Theorem C22_skip_whitespace : forall l ws rest, Forall (fun c => In c [x09; x0a; x0b; x0c; x0d; x20]) ws ->
  match rest with [] => True | c :: _ => ~ In c [x09; x0a; x0b; x0c; x0d; x20] end ->
  skip_whitespace (mkInput l (ws ++ rest)) =
  match rest, l with [], false => Incomplete 1 | _, _ => Data (mkInput l rest) tt end.
Proof.
  intros l ws rest Hw Hr. unfold skip_whitespace, take_while. cbn [buf last].
  assert (Hpos : position (fun c => Bool.eqb (is_whitespace c) false) (ws ++ rest) = match rest with [] => None | _ => Some (length ws) end).
  { induction Hw as [|c ws Hc Hw IH].
    - destruct rest as [|c rest]; [reflexivity|]. simpl. destruct (is_whitespace c) eqn:E; [|reflexivity].
      exfalso. apply Hr. apply C22_whitespace. exact E.
    - simpl. apply C22_whitespace in Hc. rewrite Hc. simpl. rewrite IH. destruct rest; reflexivity. }
  rewrite Hpos. destruct rest as [|c rest].
  - destruct l; reflexivity.
  - rewrite firstn_app, skipn_app, firstn_all, skipn_all, Nat.sub_diag. simpl. destruct l; reflexivity.
Qed.
Print Assumptions C22_lowercase.
Print Assumptions C22_uppercase.
Print Assumptions C22_digit.
Print Assumptions C22_alpha.
Print Assumptions C22_alphanumeric.
Print Assumptions C22_whitespace.
Print Assumptions C22_horizontal_space.
Print Assumptions C22_end_of_line.
Print Assumptions C22_digit_parser.
Print Assumptions C22_skip_whitespace.
Example C22_case : In x61 lower /\ is_lowercase x61 = true /\ ~ In x41 lower /\ is_lowercase x41 = false /\
  Forall (fun c => In c [x09; x0a; x0b; x0c; x0d; x20]) [x20; x0a; x09] /\ ~ In x61 [x09; x0a; x0b; x0c; x0d; x20] /\
  skip_whitespace (mkInput false ([x20; x0a; x09] ++ [x61; x20])) = Data (mkInput false [x61; x20]) tt /\
  skip_whitespace (mkInput false ([x20; x0a] ++ [])) = Incomplete 1 /\ skip_whitespace (mkInput true ([x20; x0a] ++ [])) = Data (mkInput true []) tt.
Proof.
  split; [left; reflexivity|]. split; [reflexivity|]. split; [intros H; apply C22_lowercase in H; discriminate H|]. split; [reflexivity|].
  split; [repeat constructor; cbn; tauto|]. split; [cbn; intuition discriminate|]. repeat split.
Qed.

(** * C23: decimal *)

(** Any digits, any leading zeros, any following input; the number fits. *)
Theorem C23_fits : forall verbose checked T l ds rest, admits_u8 T ->
  ds <> [] -> Forall a_digit ds -> ends_number l rest -> number ds <= int_max T ->
  decimal verbose checked T (mkInput l (ds ++ rest)) = Data (mkInput l rest) (number ds).
Proof.
  intros verbose checked T l ds rest HT Hne Hd He Hf. rewrite decimal_char by assumption. pose proof (number_nonneg ds). pose proof (min_max T HT).
  rewrite result_fits by lia. reflexivity.
Qed.
(** It does not fit: debug builds panic. *)
Theorem C23_overflow_debug : forall verbose T l ds rest, admits_u8 T ->
  ds <> [] -> Forall a_digit ds -> ends_number l rest -> int_max T < number ds ->
  decimal verbose true T (mkInput l (ds ++ rest)) = Panic.
Proof. intros. rewrite decimal_char by assumption. rewrite result_overflow by lia. reflexivity. Qed.
(** It does not fit: release builds return it modulo 2^width. *)
Theorem C23_overflow_release : forall verbose T l ds rest, admits_u8 T ->
  ds <> [] -> Forall a_digit ds -> ends_number l rest ->
  exists v, decimal verbose false T (mkInput l (ds ++ rest)) = Data (mkInput l rest) v /\
    reduced (width T) (int_min T) (int_max T) (number ds) v.
Proof.
  intros. rewrite decimal_char by assumption. rewrite result_unchecked by assumption. eexists. split; [reflexivity|].
  split; [apply wrap_in_range; assumption|apply wrap_mod; assumption].
Qed.
(** Printing and parsing back. *)
Theorem C23_round_trip : forall verbose checked T l n rest, admits_u8 T -> Z.of_N n <= int_max T -> ends_number l rest ->
  decimal verbose checked T (mkInput l (print n ++ rest)) = Data (mkInput l rest) (Z.of_N n).
Proof.
  intros verbose checked T l n rest HT Hn He. rewrite C23_fits; auto using print_nonempty, print_digits; rewrite number_print; auto.
Qed.
(** No digit: an error at the start; nothing there, or only digits with more input to come: incomplete. *)
Theorem C23_no_number : forall verbose checked T l b,
  (match b with [] => True | c :: _ => ~ a_digit c end \/ (l = false /\ Forall a_digit b)) ->
  decimal verbose checked T (mkInput l b) =
  match b with
  | c :: _ => if is_digit c then Incomplete 1 else Error b (err_unexpected verbose)
  | [] => Incomplete 1
  end.
Proof. exact decimal_other. Qed.
(** The cases are exhaustive. *)
Theorem C23_total : forall (l : bool) b,
  (match b with [] => True | c :: _ => ~ a_digit c end \/ (l = false /\ Forall a_digit b)) \/
  exists ds rest, b = ds ++ rest /\ ds <> [] /\ Forall a_digit ds /\ ends_number l rest.
Proof.
  intros l b. induction b as [|c b IH]; [left; left; exact Logic.I|].
  destruct (is_digit c) eqn:E.
  - apply is_digit_spec in E. destruct IH as [[H|[-> H]]|(ds & rest & -> & Hne & Hd & He)].
    + destruct b as [|d b].
      * destruct l; [|left; right; auto]. right. exists [c], []. repeat split; auto; congruence.
      * right. exists [c], (d :: b). repeat split; auto; congruence.
    + left. right. auto.
    + right. exists (c :: ds), rest. repeat split; auto; congruence.
  - left. left. apply is_digit_false. exact E.
Qed.
Print Assumptions C23_fits.
Print Assumptions C23_overflow_debug.
Print Assumptions C23_overflow_release.
Print Assumptions C23_round_trip.
Print Assumptions C23_no_number.
Print Assumptions C23_total.
Example C23_case : admits_u8 (mkInt 8 false) /\ admits_u8 (mkInt 16 true) /\ ~ admits_u8 (mkInt 8 true) /\
  ends_number false (bytes "x1"%string) /\ Forall a_digit (bytes "00255"%string) /\
  decimal true true (mkInt 8 false) (mkInput false (bytes "00255x1"%string)) = Data (mkInput false (bytes "x1"%string)) 255 /\
  decimal true true (mkInt 8 false) (mkInput false (bytes "256x1"%string)) = Panic /\
  decimal true false (mkInt 8 false) (mkInput false (bytes "259x1"%string)) = Data (mkInput false (bytes "x1"%string)) 3 /\
  decimal true false (mkInt 16 true) (mkInput true (bytes "32768"%string)) = Data (mkInput true []) (-32768) /\
  print 1024 = bytes "1024"%string.
Proof. repeat split; try (simpl; lia); try discriminate; try (vm_compute; congruence); repeat constructor; discriminate. Qed.

(** * C24: signed *)

(** The signs: none, "+", "-". *)
Theorem C24_fits : forall verbose checked T sg s l ds rest, admits_u8 T -> is_signed T = true ->
  sign_of sg = Some s -> ds <> [] -> Forall a_digit ds -> ends_number l rest -> number ds <= int_max T ->
  signed verbose checked T (decimal verbose checked T) (mkInput l (sg ++ ds ++ rest)) = Data (mkInput l rest) (s * number ds).
Proof.
  intros verbose checked T sg s l ds rest HT Hsg Hs Hne Hd He Hf. rewrite (signed_char _ _ _ _ s) by assumption. pose proof (number_nonneg ds).
  assert (Hmm : int_min T = - int_max T - 1) by (unfold int_min, int_max; rewrite Hsg; lia). pose proof (min_max T HT).
  assert (s = 1 \/ s = -1) as Hs1.
  { destruct sg as [|c [|c2 sg]]; [inversion Hs; auto| |destruct c; discriminate]. destruct c; try discriminate; inversion Hs; auto. }
  rewrite result_fits by lia. rewrite result_fits by lia. reflexivity.
Qed.
(** Every value but the least one can be written and parsed back. *)
(** Missing: the least value, which panics in debug builds ([C24_least_refuted]); release builds: [C24_release_least]. *)
Theorem C24_round_trip_partial : forall verbose checked T l z rest, admits_u8 T -> is_signed T = true ->
  int_min T < z <= int_max T -> ends_number l rest ->
  signed verbose checked T (decimal verbose checked T) (mkInput l (print_signed z ++ rest)) = Data (mkInput l rest) z.
Proof.
  intros verbose checked T l z rest HT Hsg Hz He.
  assert (Hmm : int_min T = - int_max T - 1) by (unfold int_min, int_max; rewrite Hsg; lia).
  destruct z as [|p|p]; cbn [print_signed].
  - change (print (Z.to_N 0) ++ rest) with ([] ++ print (Z.to_N 0) ++ rest). rewrite (C24_fits _ _ _ [] 1); auto using print_nonempty, print_digits; rewrite number_print; auto.
    simpl. lia.
  - change (print (Z.to_N (Zpos p)) ++ rest) with ([] ++ print (Z.to_N (Zpos p)) ++ rest).
    rewrite (C24_fits _ _ _ [] 1); auto using print_nonempty, print_digits; rewrite number_print; [f_equal; simpl; lia|simpl; lia].
  - change (("-"%byte :: print (Npos p)) ++ rest) with (["-"%byte] ++ print (Npos p) ++ rest).
    rewrite (C24_fits _ _ _ ["-"%byte] (-1)); auto using print_nonempty, print_digits; rewrite number_print; [f_equal; simpl; lia|simpl; lia].
Qed.
(** Release builds get the least value right too, and reduce everything else. *)
Theorem C24_release : forall verbose T sg s l ds rest, admits_u8 T -> sign_of sg = Some s ->
  ds <> [] -> Forall a_digit ds -> ends_number l rest ->
  exists v, signed verbose false T (decimal verbose false T) (mkInput l (sg ++ ds ++ rest)) = Data (mkInput l rest) v /\
    reduced (width T) (int_min T) (int_max T) (s * number ds) v.
Proof.
  intros verbose T sg s l ds rest HT Hs Hne Hd He. rewrite (signed_char _ _ _ _ s) by assumption. rewrite !result_unchecked by assumption.
  eexists. split; [reflexivity|]. split; [apply wrap_in_range; assumption|].
  rewrite wrap_mod by assumption. rewrite <- Zmult_mod_idemp_r, wrap_mod, Zmult_mod_idemp_r by assumption. reflexivity.
Qed.
Theorem C24_release_least : forall verbose T l rest, admits_u8 T -> is_signed T = true -> ends_number l rest ->
  signed verbose false T (decimal verbose false T) (mkInput l (print_signed (int_min T) ++ rest)) = Data (mkInput l rest) (int_min T).
Proof.
  intros verbose T l rest HT Hsg He. pose proof (min_max T HT) as Hmm.
  assert (Hmin : int_min T = - int_max T - 1) by (unfold int_min, int_max; rewrite Hsg; lia).
  destruct (int_min T) as [|p|p] eqn:Hm; try lia. cbn [print_signed].
  change (("-"%byte :: print (Npos p)) ++ rest) with (["-"%byte] ++ print (Npos p) ++ rest).
  destruct (C24_release verbose T ["-"%byte] (-1) l (print (Npos p)) rest) as (v & Hv & Hr & Hmod); auto using print_nonempty, print_digits.
  rewrite Hv. f_equal. rewrite number_print in Hmod. cbn [Z.of_N] in Hmod. replace (-1 * Z.pos p) with (Z.neg p) in Hmod by lia.
  rewrite <- (wrap_fits T v) by (auto; lia). rewrite <- (wrap_fits T (Z.neg p)) by (auto; lia). apply wrap_ext. exact Hmod.
Qed.
(** Debug builds panic on the least value of every signed type: the magnitude is computed first and does not fit. *)
Theorem C24_least_refuted : forall verbose T l rest, admits_u8 T -> is_signed T = true -> ends_number l rest ->
  signed verbose true T (decimal verbose true T) (mkInput l (print_signed (int_min T) ++ rest)) = Panic.
Proof.
  intros verbose T l rest HT Hsg He. pose proof (min_max T HT) as Hmm.
  assert (Hmin : int_min T = - int_max T - 1) by (unfold int_min, int_max; rewrite Hsg; lia).
  destruct (int_min T) as [|p|p] eqn:Hm; try lia. cbn [print_signed].
  change (("-"%byte :: print (Npos p)) ++ rest) with (["-"%byte] ++ print (Npos p) ++ rest).
  rewrite (signed_char _ _ _ _ (-1)); auto using print_nonempty, print_digits. rewrite number_print. cbn [Z.of_N].
  rewrite result_overflow by lia. reflexivity.
Qed.
(** A sign must be followed by a number. *)
Theorem C24_sign_alone : forall verbose checked T sg s l b, sign_of sg = Some s -> sg <> [] ->
  signed verbose checked T (decimal verbose checked T) (mkInput l (sg ++ b)) =
  match decimal verbose checked T (mkInput l b) with
  | Data j v => match int_result T checked (s * v) with Some v => Data j v | None => Panic end
  | r => r
  end.
Proof.
  intros verbose checked T sg s l b Hs Hne. destruct sg as [|c [|c2 sg]]; [congruence| |destruct c; discriminate].
  assert (Hid : forall r : pres byte Z (error byte), map_err (fun v => v) r = r) by (intros []; reflexivity).
  destruct c; try discriminate; inversion Hs; subst; unfold signed; cbn -[decimal Z.mul int_result map_err]; rewrite Hid;
  unfold replace; cbn -[decimal Z.mul int_result]; destruct (decimal verbose checked T (mkInput l b)) as [j v| | | |]; reflexivity.
Qed.
Print Assumptions C24_fits.
Print Assumptions C24_round_trip_partial.
Print Assumptions C24_release.
Print Assumptions C24_release_least.
Print Assumptions C24_least_refuted.
Print Assumptions C24_sign_alone.
Example C24_case : let T := mkInt 16 true in admits_u8 T /\ int_min T = -32768 /\ int_max T = 32767 /\
  signed true true T (decimal true true T) (mkInput false (bytes "-32767,"%string)) = Data (mkInput false (bytes ","%string)) (-32767) /\
  signed true true T (decimal true true T) (mkInput false (bytes "-32768,"%string)) = Panic /\
  signed true false T (decimal true false T) (mkInput false (bytes "-32768,"%string)) = Data (mkInput false (bytes ","%string)) (-32768) /\
  print_signed (-32768) = bytes "-32768"%string.
Proof. cbv zeta. repeat match goal with |- _ /\ _ => split end; vm_compute; congruence. Qed.
