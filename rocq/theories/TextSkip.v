(** The text of [skip_many] (src/combinators/bounded.rs:154-191, 292-321, 403-419, 502-530, 621-652, 741-746, src/combinators/mod.rs:287-317)
    means what the model says. *)
From Coq Require Import List Bool Arith String Lia.
From Verif Require Import Base.
From Verif Require Parsers.
From Verif Require Import Combinators Rust RustText TextModel TextProofs TextLoop.
Import ListNotations.

Set Implicit Arguments.
Local Open Scope string_scope.
Local Open Scope nat_scope.

Section SkipMany.
  Context {P Q C U V T E N I : Type}.
  Notation thing := (thing P Q C U V T E N).
  Notation value := (value I thing).
  Variable eqb : I -> I -> bool.
  Variable verbose : bool.
  Variable p : sparser P I U E.
  Variable q : sparser Q I V N.
  Variable conv : value -> value.
  Variable starts : thing.
  Variable acts : thing -> caction value value thing.
  Context {R : Type}.
  Notation eval := (@eval I thing R (text verbose) (outside_parsers p q) eqb conv starts acts).
  Notation loop := (@loop I thing R (text verbose) (outside_parsers p q) eqb conv starts acts).
  Notation apply := (@apply I thing R (text verbose) (outside_parsers p q) eqb conv starts acts).
  Notation invoke := (@invoke I thing R (text verbose) (outside_parsers p q) eqb conv starts acts).


  (** How the loop ends when the model ends in [r]. *)
  Definition skips (g : nat -> @comp I thing R value) (s : list value) (st : input I -> list value -> Prop) (r : pres I unit E) : Prop :=
    match r with
    | NoFuel => True
    | Panic => exists s', ends g s Panicking s'
    | Data i _ => exists s', st i s' /\ ends g s (Val VUnit) s'
    | r => exists v s', w_pres w_unit w_err r = Val v /\ ends g s (Return v) s'
    end.

  Lemma skips_returns en e t s st (r : pres I unit E) :
    skips (fun m => loop m en e) s st r -> r <> NoFuel ->
    (forall i s', st i s' -> returns (fun m => eval m en t) s' (Val (w_result "Data" [w_input i; VUnit]))) ->
    returns (fun m => eval m en (ESeq (ELoop e) t)) s (w_pres w_unit w_err r).
  Proof.
    intros H Hr Ht. destruct r as [i []|b x|n| |]; cbn [skips w_pres] in *; [| | | |contradiction].
    - destruct H as (s' & Hs & H). eapply returns_seq; [apply ends_loop; exact H|]. apply Ht. exact Hs.
    - destruct H as (v & s' & [= <-] & H). eexists _, s'. split; [|apply ends_seq_halt; [apply ends_loop; exact H|exact Logic.I]]. reflexivity.
    - destruct H as (v & s' & [= <-] & H). eexists _, s'. split; [|apply ends_seq_halt; [apply ends_loop; exact H|exact Logic.I]]. reflexivity.
    - destruct H as (s' & H). eexists _, s'. split; [|apply ends_seq_halt; [apply ends_loop; exact H|exact Logic.I]]. reflexivity.
  Qed.

  Lemma skips_more en e s v s1 st r :
    ends (fun m => eval m en e) s (Val v) s1 -> skips (fun m => loop m en e) s1 st r -> skips (fun m => loop m en e) s st r.
  Proof.
    intros H1 H2. destruct r; cbn [skips] in *; try exact Logic.I.
    - destruct H2 as (s' & Hs & H2). exists s'. split; [exact Hs|]. eapply ends_loop_more; eassumption.
    - destruct H2 as (w & s' & Hw & H2). exists w, s'. split; [exact Hw|]. eapply ends_loop_more; eassumption.
    - destruct H2 as (w & s' & Hw & H2). exists w, s'. split; [exact Hw|]. eapply ends_loop_more; eassumption.
    - destruct H2 as (s' & H2). exists s'. eapply ends_loop_more; eassumption.
  Qed.
  Lemma skips_break en e s s1 (st : input I -> list value -> Prop) i :
    ends (fun m => eval m en e) s Break s1 -> st i s1 -> skips (fun m => loop m en e) s st (ret tt i).
  Proof. intros H Hs. exists s1. split; [exact Hs|]. apply ends_loop_break. exact H. Qed.
  Lemma skips_error en e s s1 st b x :
    ends (fun m => eval m en e) s (Return (w_result "Error" [VSlice b; w_err x])) s1 -> skips (fun m => loop m en e) s st (Error b x).
  Proof. intros H. eexists _, s1. split; [reflexivity|]. apply ends_loop_return. exact H. Qed.
  Lemma skips_incomplete en e s s1 st n :
    ends (fun m => eval m en e) s (Return (w_result "Incomplete" [VNat n])) s1 -> skips (fun m => loop m en e) s st (Incomplete n).
  Proof. intros H. eexists _, s1. split; [reflexivity|]. apply ends_loop_return. exact H. Qed.
  Lemma skips_panic en e s s1 st :
    ends (fun m => eval m en e) s Panicking s1 -> skips (fun m => loop m en e) s st Panic.
  Proof. intros H. exists s1. apply ends_loop_panic. exact H. Qed.

  Ltac whole := apply ends_deep; intros; destruct verbose; evaluate_left; reflexivity.
  Ltac body Hp := apply ends_deep; intros; destruct verbose; evaluate_left; try rewrite Hp; reflexivity.
  Ltac counted Hp :=
    apply ends_deep; intros; destruct verbose;
    match goal with |- ?l = _ =>
      let l' := eval cbv -[Nat.max Nat.add firstn skipn List.length nth_error Parsers.position Parsers.position_st Parsers.string_mismatch std_position each] in l in
      change l with l' end;
    try rewrite Hp; reflexivity.

  Lemma skip_full_says s i :
    forall fuel, skip_many_full p fuel s i <> NoFuel ->
    returns (fun m => invoke m (inl (w_range RFull)) "skip_many" [w_input i; VObj (TParser s)]) []
                 (w_pres w_unit w_err (skip_many_full p fuel s i)).
  Proof.
    intros fuel HF. eapply returns_invoke; [reflexivity|reflexivity|reflexivity|].
    eapply skips_returns with (st := fun i s' => exists x, s' = [w_input i; x]); [|exact HF|].
    - cbn [st_len st_new w_range]. clear HF.
      revert s i. induction fuel as [|fuel IH]; intros s [l b]; [exact Logic.I|]. cbn [skip_many_full].
      destruct (p s (mkInput l b)) as [[[l' b'] u|b' e|n| |] s'] eqn:Hp; [| | | |exact Logic.I].
      + destruct l, l'; (eapply skips_more; [|apply IH]; body Hp).
      + destruct l; (eapply skips_break; [|eexists; reflexivity]; body Hp).
      + cbn [last]. destruct l; [eapply skips_break; [|eexists; reflexivity]|eapply skips_incomplete]; body Hp.
      + destruct l; (eapply skips_panic; body Hp).
    - intros [l b] s1 [x ->]. destruct l; (eapply returns_ends with (o := Val _); whole).
  Qed.

  Lemma skip_from_says s a i :
    forall fuel, skip_many_from p fuel s a i <> NoFuel ->
    returns (fun m => invoke m (inl (w_range (RFrom a))) "skip_many" [w_input i; VObj (TParser s)]) []
                 (w_pres w_unit w_err (skip_many_from p fuel s a i)).
  Proof.
    intros fuel HF. eapply returns_invoke; [reflexivity|reflexivity|reflexivity|].
    eapply returns_let; [whole|reflexivity|].
    eapply skips_returns with (st := fun i s' => exists x y, s' = [w_input i; x; y]); [|exact HF|].
    - cbn [st_len st_new w_range]. clear HF. generalize a at 1. intros a0.
      revert s a i. induction fuel as [|fuel IH]; intros s a [l b]; [exact Logic.I|]. cbn [skip_many_from].
      destruct (p s (mkInput l b)) as [[[l' b'] u|b' e|n| |] s'] eqn:Hp; [| | | |exact Logic.I].
      + destruct l, l', a as [|a]; (eapply skips_more; [|apply IH]; counted Hp).
      + destruct l, a as [|a]; ((eapply skips_break; [|do 2 eexists; reflexivity]) || eapply skips_error); counted Hp.
      + destruct l, a as [|a]; ((eapply skips_break; [|do 2 eexists; reflexivity]) || eapply skips_incomplete); counted Hp.
      + destruct l, a as [|a]; (eapply skips_panic; counted Hp).
    - intros [l b] s1 (x & y & ->). destruct l; (eapply returns_ends with (o := Val _); whole).
  Qed.

  Lemma skip_to_says s a i :
    forall fuel, skip_many_to p fuel s a i <> NoFuel ->
    returns (fun m => invoke m (inl (w_range (RTo a))) "skip_many" [w_input i; VObj (TParser s)]) []
                 (w_pres w_unit w_err (skip_many_to p fuel s a i)).
  Proof.
    intros fuel HF. eapply returns_invoke; [reflexivity|reflexivity|reflexivity|]. unfold skip_many_to in *.
    assert (Hmax : Nat.max a 1 <? 1 = false) by (apply Nat.ltb_ge; lia).
    eapply returns_let; [apply ends_deep; intros; destruct verbose; evaluate_left; rewrite Hmax; reflexivity|reflexivity|].
    eapply skips_returns with (st := fun i s' => exists x y, s' = [w_input i; x; y]); [|exact HF|].
    - cbn [st_len st_new w_range]. clear HF Hmax. generalize a at 1. intros a0. generalize (Nat.max a 1 - 1). clear a. intros a.
      revert s a i. induction fuel as [|fuel IH]; intros s a [l b]; [exact Logic.I|]. cbn [skip_loop_to].
      destruct a as [|a]; [destruct l; (eapply skips_break; [|do 2 eexists; reflexivity]); counted tt|]. cbn [Nat.eqb].
      destruct (p s (mkInput l b)) as [[[l' b'] u|b' e|n| |] s'] eqn:Hp; [| | | |exact Logic.I].
      + destruct l, l'; (eapply skips_more; [|apply IH]; counted Hp).
      + destruct l; ((eapply skips_break; [|do 2 eexists; reflexivity]) || eapply skips_error); counted Hp.
      + destruct l; ((eapply skips_break; [|do 2 eexists; reflexivity]) || eapply skips_incomplete); counted Hp.
      + destruct l; (eapply skips_panic; counted Hp).
    - intros [l b] s1 (x & y & ->). destruct l; (eapply returns_ends with (o := Val _); whole).
  Qed.

  Lemma skip_exact_says s a i :
    forall fuel, skip_many_exact p fuel s a i <> NoFuel ->
    returns (fun m => invoke m (inl (w_range (RExact a))) "skip_many" [w_input i; VObj (TParser s)]) []
                 (w_pres w_unit w_err (skip_many_exact p fuel s a i)).
  Proof.
    intros fuel HF. eapply returns_invoke; [reflexivity|reflexivity|reflexivity|].
    eapply returns_let; [whole|reflexivity|].
    eapply skips_returns with (st := fun i s' => exists x y, s' = [w_input i; x; y]); [|exact HF|].
    - cbn [st_len st_new w_range]. clear HF. generalize a at 1. intros a0.
      revert s a i. induction fuel as [|fuel IH]; intros s a [l b]; [exact Logic.I|]. cbn [skip_many_exact].
      destruct a as [|a]; [destruct l; (eapply skips_break; [|do 2 eexists; reflexivity]); counted tt|]. cbn [Nat.eqb].
      destruct (p s (mkInput l b)) as [[[l' b'] u|b' e|n| |] s'] eqn:Hp; [| | | |exact Logic.I].
      + destruct l, l'; (eapply skips_more; [|apply IH]; counted Hp).
      + destruct l; ((eapply skips_break; [|do 2 eexists; reflexivity]) || eapply skips_error); counted Hp.
      + destruct l, n as [|n]; ((eapply skips_break; [|do 2 eexists; reflexivity]) || eapply skips_incomplete); counted Hp.
      + destruct l; (eapply skips_panic; counted Hp).
    - intros [l b] s1 (x & y & ->). destruct l; (eapply returns_ends with (o := Val _); whole).
  Qed.

  Lemma skip_range_says s a c i :
    forall fuel, skip_many_range p fuel s a c i <> NoFuel ->
    returns (fun m => invoke m (inl (w_range (RRange a c))) "skip_many" [w_input i; VObj (TParser s)]) []
                 (w_pres w_unit w_err (skip_many_range p fuel s a c i)).
  Proof.
    intros fuel HF. eapply returns_invoke; [reflexivity|reflexivity|reflexivity|]. unfold skip_many_range in *.
    destruct (a <=? c) eqn:Hle; cbn [negb] in *.
    2: { eexists Panicking, _. split; [reflexivity|]. apply ends_seq_halt; [|exact Logic.I].
         apply ends_deep; intros; destruct verbose; evaluate_left; rewrite Hle; reflexivity. }
    eapply returns_seq; [apply ends_deep; intros; destruct verbose; evaluate_left; rewrite Hle; reflexivity|].
    assert (Hmax : Nat.max c 1 <? 1 = false) by (apply Nat.ltb_ge; lia).
    eapply returns_let; [apply ends_deep; intros; destruct verbose; evaluate_left; rewrite Hmax; reflexivity|reflexivity|].
    eapply skips_returns with (st := fun i s' => exists x y z, s' = [w_input i; x; y; z]); [|exact HF|].
    - cbn [st_len st_new w_range]. clear HF Hmax Hle. generalize a at 1, c at 1. intros a0 c0. generalize (Nat.max c 1 - 1). clear c. intros c.
      revert s a c i. induction fuel as [|fuel IH]; intros s a c [l b]; [exact Logic.I|]. cbn [skip_loop_range].
      destruct c as [|c]; [destruct l; (eapply skips_break; [|do 3 eexists; reflexivity]); counted tt|]. cbn [Nat.eqb].
      destruct (p s (mkInput l b)) as [[[l' b'] u|b' e|n| |] s'] eqn:Hp; [| | | |exact Logic.I].
      + destruct l, l', a as [|a]; (eapply skips_more; [|apply IH]; counted Hp).
      + destruct l, a as [|a]; ((eapply skips_break; [|do 3 eexists; reflexivity]) || eapply skips_error); counted Hp.
      + destruct l, a as [|a]; ((eapply skips_break; [|do 3 eexists; reflexivity]) || eapply skips_incomplete); counted Hp.
      + destruct l, a as [|a]; (eapply skips_panic; counted Hp).
    - intros [l b] s1 (x & y & z & ->). destruct l; (eapply returns_ends with (o := Val _); whole).
  Qed.

  Lemma bskip_many_says s r i :
    forall fuel, bskip_many fuel r s p i <> NoFuel ->
    returns (fun m => invoke m (inl (w_range r)) "skip_many" [w_input i; VObj (TParser s)]) [] (w_pres w_unit w_err (bskip_many fuel r s p i)).
  Proof.
    intros fuel. destruct r; [apply skip_range_says|apply skip_from_says|apply skip_full_says|apply skip_to_says|apply skip_exact_says].
  Qed.
End SkipMany.

Section Calls.
  Context {P Q C U V T E N I : Type}.
  Notation thing := (thing P Q C U V T E N).
  Notation value := (value I thing).
  Variable eqb : I -> I -> bool.
  Variable verbose : bool.
  Variable p : sparser P I U E.
  Variable q : sparser Q I V N.
  Variable conv : value -> value.
  Variable starts : thing.
  Variable acts : thing -> caction value value thing.
  Notation says ty f vs r := (settles (fun n => call (text verbose) (outside_parsers p q) eqb conv starts acts n ty f vs) r).
  Ltac whole := apply ends_deep; intros; destruct verbose; evaluate_left; reflexivity.

  Lemma text_bounded_skip_many_says fuel s r i :
    bskip_many fuel r s p i <> NoFuel ->
    says "bounded" "skip_many" [w_input i; w_range r; VObj (TParser s)] (w_pres w_unit w_err (bskip_many fuel r s p i)).
  Proof.
    intros HF. eapply settles_apply; [reflexivity|reflexivity|].
    eapply returns_method with (r := inl (w_range r)) (s1 := []); [destruct r; whole|whole|]. apply bskip_many_says. exact HF.
  Qed.
  Lemma text_skip_many_says fuel s i :
    skip_many fuel s p i <> NoFuel ->
    says "" "skip_many" [w_input i; VObj (TParser s)] (w_pres w_unit w_err (skip_many fuel s p i)).
  Proof.
    intros HF. eapply settles_apply; [reflexivity|reflexivity|].
    eapply returns_call; [whole|whole|]. eapply returns_apply; [reflexivity|reflexivity|].
    eapply returns_method; [whole|whole|]. apply (@bskip_many_says _ _ _ _ _ _ _ _ _ eqb verbose p q conv starts acts _ s RFull). exact HF.
  Qed.
  Lemma text_skip_many1_says fuel s i :
    skip_many1 fuel s p i <> NoFuel ->
    says "" "skip_many1" [w_input i; VObj (TParser s)] (w_pres w_unit w_err (skip_many1 fuel s p i)).
  Proof.
    intros HF. eapply settles_apply; [reflexivity|reflexivity|].
    eapply returns_call; [whole|whole|]. eapply returns_apply; [reflexivity|reflexivity|].
    eapply returns_method; [whole|whole|]. apply (@bskip_many_says _ _ _ _ _ _ _ _ _ eqb verbose p q conv starts acts _ s (RFrom 1)). exact HF.
  Qed.
End Calls.
