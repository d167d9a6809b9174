(** Lemmas about texts, for property C56. *)
From Coq Require Import List Bool Arith NArith String Ascii Lia.
From Coq.Init Require Import Byte.
From Verif Require Import Base Parsers Buffer Stream Messages SpecMessages.
Import ListNotations.
Local Open Scope string_scope.
Local Notation text := String.string.

Set Implicit Arguments.

(** * Strings *)
Lemma sapp_assoc : forall a b c : text, (a ++ b) ++ c = a ++ (b ++ c).
Proof. induction a as [|x a IH]; intros; cbn; [reflexivity|]. rewrite IH. reflexivity. Qed.
Lemma sapp_nil : forall a : text, a ++ "" = a.
Proof. induction a as [|x a IH]; cbn; [reflexivity|]. rewrite IH. reflexivity. Qed.
Lemma slength_app : forall a b : text, String.length (a ++ b) = String.length a + String.length b.
Proof. induction a as [|x a IH]; intros; cbn; [reflexivity|]. rewrite IH. reflexivity. Qed.
Lemma cancel_l : forall a x y : text, a ++ x = a ++ y -> x = y.
Proof. induction a as [|c a IH]; cbn; intros x y H; [exact H|]. injection H. apply IH. Qed.
Lemma cancel_r : forall a x y : text, x ++ a = y ++ a -> x = y.
Proof.
  intros a. induction x as [|c x IH]; intros [|d y] H; cbn in H; auto.
  - apply (f_equal String.length) in H. cbn in H. rewrite slength_app in H. lia.
  - apply (f_equal String.length) in H. cbn in H. rewrite slength_app in H. lia.
  - injection H as E H. subst. f_equal. auto.
Qed.
Lemma occurs_app : forall c a b, occurs c (a ++ b) <-> occurs c a \/ occurs c b.
Proof. induction a as [|d a IH]; intros b; cbn; [tauto|]. rewrite IH. tauto. Qed.
(** A character which does not occur in front of it is where both texts have it. *)
Lemma split_at : forall c a b x y, ~ occurs c a -> ~ occurs c b -> a ++ String c x = b ++ String c y -> a = b /\ x = y.
Proof.
  induction a as [|d a IH]; intros [|e b] x y Ha Hb H; cbn in *.
  - injection H as ->. auto.
  - injection H as -> _. exfalso. auto.
  - injection H as -> _. exfalso. auto.
  - injection H as -> H. destruct (IH b x y) as [-> ->]; auto.
Qed.

(** * Lists *)
Lemma concat_cons : forall x l, concat ", " (x :: l) = x ++ match l with [] => "" | _ => ", " ++ concat ", " l end.
Proof. intros x [|y l]; cbn; [symmetry; apply sapp_nil|reflexivity]. Qed.
Lemma concat_avoids : forall A (show : A -> text) c, (forall a, ~ occurs c (show a)) -> ~ occurs c ", " -> forall l, ~ occurs c (concat ", " (List.map show l)).
Proof.
  intros A show c H Hs. induction l as [|x l IH]; [exact (fun F => F)|]. cbn [List.map]. rewrite concat_cons, occurs_app.
  intros [Ho|Ho]; [exact (H _ Ho)|]. destruct l as [|y l]; [exact Ho|]. cbn [List.map] in *. apply occurs_app in Ho. tauto.
Qed.
Lemma concat_inj : forall A (show : A -> text), plain_text show -> forall l m, concat ", " (List.map show l) = concat ", " (List.map show m) -> l = m.
Proof.
  intros A show [Ht Hp]. induction l as [|x l IH]; intros [|y m] H; auto; cbn [List.map] in H; rewrite ?concat_cons in H.
  - exfalso. destruct (Hp y) as [Hn _]. destruct (show y); [congruence|discriminate].
  - exfalso. destruct (Hp x) as [Hn _]. destruct (show x); [congruence|discriminate].
  - destruct (Hp x) as (_ & Hx & _). destruct (Hp y) as (_ & Hy & _).
    destruct l as [|x' l]; destruct m as [|y' m]; cbn [List.map] in H.
    + rewrite !sapp_nil in H. apply Ht in H. congruence.
    + exfalso. apply Hx. rewrite sapp_nil in H. rewrite H. apply occurs_app. right. left. reflexivity.
    + exfalso. apply Hy. rewrite sapp_nil in H. rewrite <- H. apply occurs_app. right. left. reflexivity.
    + destruct (@split_at "," (show x) (show y) _ _ Hx Hy H) as [E H']. apply Ht in E. subst. injection H' as H'. f_equal. apply IH. exact H'.
Qed.
Lemma list_text_split : forall A (show : A -> text), plain_text show -> forall l m x y, list_text show l ++ x = list_text show m ++ y -> l = m /\ x = y.
Proof.
  intros A show Hp l m x y H. unfold list_text in H. cbn [append] in H. injection H as H. rewrite !sapp_assoc in H.
  assert (Hb : forall k, ~ occurs "]" (concat ", " (List.map show k))).
  { apply concat_avoids; [intros a; apply (proj2 Hp)|]. intros [E|[E|[]]]; discriminate. }
  destruct (@split_at "]" _ _ x y (Hb l) (Hb m) H) as [E ->]. split; [|reflexivity]. exact (concat_inj Hp _ _ E).
Qed.
Lemma list_text_inj : forall A (show : A -> text), plain_text show -> tells_apart (list_text show).
Proof.
  intros A show Hp l m H. destruct (@list_text_split _ _ Hp l m "" "") as [E _]; [rewrite !sapp_nil; exact H|exact E].
Qed.

(** * Numbers *)
Lemma digit_reads : forall d v, d < 10 -> reads v (digit_text d) = Some (10 * v + d).
Proof.
  intros d v H. unfold digit_text. cbn [reads]. rewrite nat_ascii_embedding by lia.
  destruct (Nat.leb_spec 48 (48 + d)); [|lia]. destruct (Nat.leb_spec (48 + d) 57); [|lia]. cbn [andb]. f_equal. lia.
Qed.
Lemma digit_zero : forall d s, d < 10 -> digit_text d = String "0" s -> d = 0 /\ s = "".
Proof.
  intros d s H E. assert (Ev : reads 0 (digit_text d) = Some d) by (rewrite digit_reads by exact H; f_equal; lia).
  assert (El : String.length (digit_text d) = 1) by reflexivity. rewrite E in Ev, El. destruct s; [|discriminate]. split; [|reflexivity]. vm_compute in Ev. congruence.
Qed.
Lemma reads_app : forall s t v, reads v (s ++ t) = match reads v s with Some w => reads w t | None => None end.
Proof. induction s as [|c s IH]; intros t v; cbn [append reads]; [reflexivity|]. destruct (_ && _); [apply IH|reflexivity]. Qed.
Lemma digits_fuel : forall f g n, n < f -> n < g -> nat_digits f n = nat_digits g n.
Proof.
  induction f as [|f IH]; intros [|g] n Hf Hg; try lia. cbn [nat_digits]. destruct (Nat.ltb_spec n 10) as [H|H]; [reflexivity|].
  assert (n / 10 < n) by (apply Nat.div_lt; lia). rewrite (IH g (n / 10)) by lia. reflexivity.
Qed.
Lemma nat_text_small : forall n, n < 10 -> nat_text n = digit_text n.
Proof. intros n H. unfold nat_text. cbn [nat_digits]. apply Nat.ltb_lt in H. rewrite H. reflexivity. Qed.
Lemma nat_text_step : forall n, 10 <= n -> nat_text n = nat_text (n / 10) ++ digit_text (n mod 10).
Proof.
  intros n H. unfold nat_text at 1. cbn [nat_digits]. destruct (Nat.ltb_spec n 10); [lia|].
  assert (n / 10 < n) by (apply Nat.div_lt; lia). unfold nat_text. rewrite (digits_fuel (f := n) (g := S (n / 10))) by lia. reflexivity.
Qed.
Lemma nat_text_decimal : forall n, decimal_of n (nat_text n).
Proof.
  intros n. induction n as [n IH] using lt_wf_ind. destruct (le_lt_dec 10 n) as [H|H].
  - assert (Hlt : n / 10 < n) by (apply Nat.div_lt; lia). destruct (IH _ Hlt) as (H1 & H2 & H3). rewrite (nat_text_step H). split; [|split].
    + destruct (nat_text (n / 10)); [congruence|discriminate].
    + rewrite reads_app, H2, digit_reads by (apply Nat.mod_upper_bound; lia). f_equal. symmetry. apply Nat.div_mod. lia.
    + intros s' E. exfalso. destruct (nat_text (n / 10)) as [|c s] eqn:Es; [congruence|]. cbn [append] in E. injection E as Ec _. subst c.
      destruct (H3 s eq_refl) as [Hz _]. assert (1 <= n / 10) by (apply Nat.div_le_lower_bound; lia). lia.
  - rewrite (nat_text_small H). split; [discriminate|]. split; [rewrite digit_reads by exact H; f_equal; lia|].
    intros s' E. exact (digit_zero H E).
Qed.
Lemma snoc : forall s : text, s = "" \/ exists s0 c, s = s0 ++ String c "".
Proof.
  induction s as [|c s [->|(s0 & d & ->)]]; [auto| |].
  - right. exists "", c. reflexivity.
  - right. exists (String c s0), d. reflexivity.
Qed.
Lemma digit_char : forall v c n, reads v (String c "") = Some n -> exists d, d < 10 /\ String c "" = digit_text d /\ n = 10 * v + d.
Proof.
  intros v c n. cbn [reads]. destruct (Nat.leb_spec 48 (nat_of_ascii c)) as [H1|]; [|discriminate].
  destruct (Nat.leb_spec (nat_of_ascii c) 57) as [H2|]; [|discriminate]. cbn [andb]. intros E. injection E as <-.
  exists (nat_of_ascii c - 48). split; [lia|]. split; [|reflexivity]. unfold digit_text.
  replace (48 + (nat_of_ascii c - 48)) with (nat_of_ascii c) by lia. rewrite ascii_nat_embedding. reflexivity.
Qed.
Lemma decimal_unique : forall k s n, String.length s <= k -> decimal_of n s -> s = nat_text n.
Proof.
  induction k as [|k IH]; intros s n Hk (H1 & H2 & H3); [destruct s; [congruence|cbn in Hk; lia]|].
  destruct (snoc s) as [->|(s0 & c & ->)]; [congruence|]. rewrite reads_app in H2. destruct (reads 0 s0) as [v|] eqn:Ev; [|discriminate].
  destruct (digit_char _ _ H2) as (d & Hd & -> & ->). destruct s0 as [|c0 s0].
  - cbn in Ev. injection Ev as <-. rewrite nat_text_small by lia. cbn. reflexivity.
  - assert (Hs : decimal_of v (String c0 s0)).
    { split; [discriminate|]. split; [exact Ev|]. intros s' E. injection E as -> <-. exfalso. cbn [append] in H3. destruct (H3 _ eq_refl) as [_ E0].
      apply (f_equal String.length) in E0. rewrite slength_app in E0. cbn in E0. lia. }
    rewrite slength_app in Hk. cbn in Hk.
    assert (Hv : String c0 s0 = nat_text v) by (apply IH; [cbn; lia|exact Hs]).
    assert (v <> 0).
    { intros ->. cbn in Hv. injection Hv as -> ->. destruct (H3 _ eq_refl) as [_ E0]. discriminate. }
    rewrite (@nat_text_step (10 * v + d)) by lia.
    replace ((10 * v + d) / 10) with v; [replace ((10 * v + d) mod 10) with d; [rewrite <- Hv; reflexivity|]|].
    + apply (@Nat.mod_unique _ 10 v); lia.
    + apply (@Nat.div_unique _ 10 v d); lia.
Qed.
Lemma nat_text_inj : tells_apart nat_text.
Proof.
  intros a b H. destruct (nat_text_decimal a) as (_ & Ha & _). destruct (nat_text_decimal b) as (_ & Hb & _). rewrite H in Ha. congruence.
Qed.
Lemma reads_digits : forall s v n, reads v s = Some n -> forall c, occurs c s -> 48 <= nat_of_ascii c <= 57.
Proof.
  induction s as [|d s IH]; intros v n; cbn [reads occurs]; [tauto|]. destruct (Nat.leb_spec 48 (nat_of_ascii d)) as [H1|]; [|discriminate].
  destruct (Nat.leb_spec (nat_of_ascii d) 57) as [H2|]; [|discriminate]. cbn [andb]. intros H c [<-|Hc]; [lia|]. eapply IH; eauto.
Qed.
Lemma nat_text_plain : plain_text nat_text.
Proof.
  split; [exact nat_text_inj|]. intros n. destruct (nat_text_decimal n) as (H1 & H2 & _). split; [exact H1|].
  repeat split; intros Ho; apply (reads_digits _ _ H2) in Ho; vm_compute in Ho; lia.
Qed.
Lemma byte_text_plain : plain_text byte_text.
Proof.
  destruct nat_text_plain as [H1 H2]. split; [|intros b; apply H2]. intros a b H. apply H1 in H. apply N2Nat.inj in H.
  pose proof (Byte.of_to_N a) as Ea. rewrite H, Byte.of_to_N in Ea. congruence.
Qed.
