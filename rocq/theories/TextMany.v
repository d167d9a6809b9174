(** The text of [many], [many_till] and [sep_by] (src/combinators/macros.rs:5-257, src/combinators/bounded.rs, src/combinators/mod.rs:34-40, 128-270)
    means what the model says. *)
From Coq Require Import List Bool Arith String Lia.
From Verif Require Import Base.
From Verif Require Parsers.
From Verif Require Import Combinators Rust RustText TextModel TextProofs TextLoop.
Import ListNotations.

Set Implicit Arguments.
Local Open Scope string_scope.
Local Open Scope nat_scope.

Section Many.
  Context {P Q C U V T E N I : Type}.
  Notation thing := (thing P Q C U V T E N).
  Notation value := (value I thing).
  Variable eqb : I -> I -> bool.
  Variable verbose : bool.
  Variable p : sparser P I U E.
  Variable q : sparser Q I V N.
  Variable cnv : N -> E.
  Variable col : collector U T C.
  Context {R : Type}.
  Notation eval := (@eval I thing R (text verbose) (outside_parsers p q) eqb (w_conv cnv) (TCollect (cinit col)) (w_acts col)).
  Notation apply := (@apply I thing R (text verbose) (outside_parsers p q) eqb (w_conv cnv) (TCollect (cinit col)) (w_acts col)).
  Notation invoke := (@invoke I thing R (text verbose) (outside_parsers p q) eqb (w_conv cnv) (TCollect (cinit col)) (w_acts col)).
  Notation gather := (@gather I thing R (text verbose) (outside_parsers p q) eqb (w_conv cnv) (TCollect (cinit col)) (w_acts col)).

  Section Gather.
    Context {It : Type}.
    Variable next : It -> step It U.
    Variable hint : It -> nat * option nat.
    Variable st : bool -> It -> list value.
    Variable r : @spot I thing.
    Variable f : value.
    Hypothesis Hnext : forall flag it,
      match next it with
      | Yield u it' => ends (fun m => invoke m r "next" []) (st flag it) (Val (some (w_item u))) (st flag it')
      | Stop it' => ends (fun m => invoke m r "next" []) (st flag it) (Val none) (st flag it')
      | StepPanic => exists s', ends (fun m => invoke m r "next" []) (st flag it) Panicking s'
      | StepNoFuel => True
      end.
    Hypothesis Hhint : forall flag it,
      ends (fun m => invoke m r "size_hint" []) (st flag it)
        (Val (VCon "" "" [VNat (fst (hint it)); w_option VNat (snd (hint it))])) (st flag it).
    Hypothesis Hf : forall flag it u, exists v, ends (fun m => apply m (inl f) [w_item u]) (st flag it) (Val v) (st true it).

    Lemma gather_says fuel : forall c it flag,
      match from_iter fuel next hint (cact col) c it with
      | FDone t it' => exists flag', ends (fun m => gather m r f (TCollect c)) (st flag it) (Val (w_out t)) (st flag' it')
      | FPanic => exists s', ends (fun m => gather m r f (TCollect c)) (st flag it) Panicking s'
      | FNoFuel => True
      end.
    Proof.
      induction fuel as [|fuel IH]; intros c it flag; [exact Logic.I|]. cbn [from_iter].
      destruct (cact col c) as [t|k|k|] eqn:Hc.
      - exists flag. exists 1. intros m Hm K. destruct m as [|m]; [lia|]. cbn [Rust.gather w_acts]. rewrite Hc. reflexivity.
      - specialize (Hnext flag it). destruct (next it) as [u it'|it'| |].
        + destruct Hnext as [n1 H1]. destruct (Hf flag it' u) as (v & n2 & H2). specialize (IH (k (Some u)) it' true).
          assert (S1 : forall o s', ends (fun m => gather m r f (TCollect (k (Some u)))) (st true it') o s' ->
                                    ends (fun m => gather m r f (TCollect c)) (st flag it) o s').
          { intros o s' [n3 H3]. exists (S (n1 + n2 + n3)). intros m Hm K. destruct m as [|m]; [lia|].
            cbn [Rust.gather w_acts]. rewrite Hc. unfold and_then. rewrite H1 by lia. cbn [some w_item]. rewrite H2 by lia. apply H3. lia. }
          destruct (from_iter fuel next hint (cact col) (k (Some u)) it') as [t it2| |]; [|destruct IH as [s' IH]; eauto|exact Logic.I].
          destruct IH as [fl IH]. eauto.
        + destruct Hnext as [n1 H1]. specialize (IH (k None) it' flag).
          assert (S1 : forall o s', ends (fun m => gather m r f (TCollect (k None))) (st flag it') o s' ->
                                    ends (fun m => gather m r f (TCollect c)) (st flag it) o s').
          { intros o s' [n3 H3]. exists (S (n1 + n3)). intros m Hm K. destruct m as [|m]; [lia|].
            cbn [Rust.gather w_acts]. rewrite Hc. unfold and_then. rewrite H1 by lia. cbn [none]. apply H3. lia. }
          destruct (from_iter fuel next hint (cact col) (k None) it') as [t it2| |]; [|destruct IH as [s' IH]; eauto|exact Logic.I].
          destruct IH as [fl IH]. eauto.
        + destruct Hnext as (s' & n1 & H1). exists s', (S n1). intros m Hm K. destruct m as [|m]; [lia|].
          cbn [Rust.gather w_acts]. rewrite Hc. unfold and_then. rewrite H1 by lia. reflexivity.
        + exact Logic.I.
      - destruct (Hhint flag it) as [n1 H1]. specialize (IH (k (hint it)) it flag).
        assert (S1 : forall o s', ends (fun m => gather m r f (TCollect (k (hint it)))) (st flag it) o s' ->
                                  ends (fun m => gather m r f (TCollect c)) (st flag it) o s').
        { intros o s' [n3 H3]. exists (S (n1 + n3)). intros m Hm K. destruct m as [|m]; [lia|].
          cbn [Rust.gather w_acts]. rewrite Hc. unfold and_then. rewrite H1 by lia. specialize (H3 m).
          destruct (hint it) as [a [b|]]; cbn [fst snd w_option some none]; apply H3; lia. }
        destruct (from_iter fuel next hint (cact col) (k (hint it)) it) as [t it2| |]; [|destruct IH as [s' IH]; eauto|exact Logic.I].
        destruct IH as [fl IH]. eauto.
      - eexists. exists 1. intros m Hm K. destruct m as [|m]; [lia|]. cbn [Rust.gather w_acts]. rewrite Hc. reflexivity.
    Qed.

    Lemma st_cut_all (s : list value) : st_cut s (st_len s) = s.
    Proof. induction s as [|v s IHs]; [reflexivity|]. cbn. rewrite IHs. reflexivity. Qed.

    (** The middle of [run_iter!] (src/combinators/macros.rs:5-36): the collection is made, then the end state is looked at. *)
    Lemma collected en s0 it0 arg tail arms (w_ends : It -> value) (fin : T -> It -> pres I T E) fuel l pa :
      st false it0 = st_new s0 (VBool false) -> r = inr (l, pa) ->
      find_fn (text verbose) "FromIterator" "from_iter" = None ->
      ends (fun m => eval_list (eval m (("item", inr (st_len s0)) :: en)) [arg]) (st false it0)
        (Val [VCon "Inspect" "" [VRef l pa; f]]) (st false it0) ->
      (forall t it flag, ends (fun m => eval m (("result", inl (w_out t)) :: ("item", inr (st_len s0)) :: en) tail) (st flag it)
                           (Val (VCon "" "" [w_out t; w_ends it])) (st flag it)) ->
      (forall t it flag, returns (fun m => eval m (("state", inl (w_ends it)) :: ("result", inl (w_out t)) :: en) arms)
                           (st_cut (st flag it) (st_len s0)) (w_pres w_out w_err (fin t it))) ->
      from_iter fuel next hint (cact col) (cinit col) it0 <> FNoFuel ->
      returns (fun m => eval m en (ELet (PCon "" "" [PVar false "result"; PVar false "state"])
                                     (ELet (PVar true "item") (EBool false)
                                        (ELet (PVar false "result") (ECall (EFn "FromIterator" "from_iter") [arg]) tail)) arms)) s0
        (w_pres w_out w_err
           match from_iter fuel next hint (cact col) (cinit col) it0 with
           | FDone t it => fin t it
           | FPanic => Panic
           | FNoFuel => NoFuel
           end).
    Proof.
      intros Hst Hr Hfind Harg Htail Harms Hfuel. pose proof (gather_says fuel (cinit col) it0 false) as G.
      assert (Hitem : ends (fun m => eval m en (EBool false)) s0 (Val (VBool false)) s0).
      { exists 1. intros m Hm K. destruct m as [|m]; [lia|]. reflexivity. }
      assert (Hplace : ends (fun m => @Rust.place I thing R (text verbose) (outside_parsers p q) eqb (w_conv cnv) (TCollect (cinit col)) (w_acts col) m
                                        (("item", inr (st_len s0)) :: en) (EFn "FromIterator" "from_iter")) (st false it0)
                         (Val (inl (VFn "FromIterator" "from_iter"))) (st false it0)).
      { exists 2. intros m Hm K. destruct m as [|[|m]]; [lia|lia|]. cbn [Rust.place Rust.eval]. rewrite Hfind. reflexivity. }
      assert (Hcall : forall o s1, ends (fun m => gather m r f (TCollect (cinit col))) (st false it0) o s1 ->
                ends (fun m => eval m (("item", inr (st_len s0)) :: en) (ECall (EFn "FromIterator" "from_iter") [arg])) (st false it0) o s1).
      { intros o s1 H. eapply ends_call; [exact Hplace|exact Harg|]. apply ends_from_iter; [exact Hfind|]. rewrite <- Hr. exact H. }
      destruct (from_iter fuel next hint (cact col) (cinit col) it0) as [t it| |]; [| |contradiction].
      - destruct G as [flag G]. specialize (Hcall _ _ G). specialize (Htail t it flag). specialize (Harms t it flag).
        eapply returns_let with (v := VCon "" "" [w_out t; w_ends it]) (s1 := st_cut (st flag it) (st_len s0)); [|reflexivity|exact Harms].
        eapply ends_let; [exact Hitem|reflexivity|]. rewrite <- Hst.
        rewrite <- (st_cut_all (st flag it)) at 1. eapply ends_let; [exact Hcall|reflexivity|exact Htail].
      - destruct G as [s1 G]. specialize (Hcall _ _ G).
        eexists Panicking, _. split; [reflexivity|]. apply ends_let_halt; [|exact Logic.I].
        eapply ends_let; [exact Hitem|reflexivity|]. rewrite <- Hst. apply ends_let_halt; [exact Hcall|exact Logic.I].
    Qed.
  End Gather.

  (** src/combinators/macros.rs:56-60 and 62-76, of the function [ty] (tools/rust_text.py). *)
  Definition w_end (ty : string) (e : end_state I E) : value :=
    match e with
    | ESError b x => VCon (ty ++ ".EndState") "Error" [VSlice b; w_err x]
    | ESIncomplete n => VCon (ty ++ ".EndState") "Incomplete" [VNat n]
    end.
  Definition w_iter {S D} (ty : string) (wp : S -> value) (wd : D -> value) (it : iter S I E D) : value :=
    VRec (ty ++ ".Iter")
      [("state", w_end ty (it_state it)); ("parser", wp (it_ps it)); ("buf", w_input (it_buf it)); ("data", wd (it_data it));
       ("_t", VCon "PhantomData" "" [])].
  Definition w_parser (s : P) : value := VObj (TParser s).
  Definition w_pair (d : nat * nat) : value := VCon "" "" [VNat (fst d); VNat (snd d)].

  Ltac whole := apply ends_deep; intros; destruct verbose; evaluate_left; reflexivity.
  Ltac calculate :=
    apply ends_deep; intros; destruct verbose;
    match goal with |- ?l = _ =>
      let l' := eval cbv -[Nat.max Nat.add firstn skipn List.length nth_error Parsers.position Parsers.position_st Parsers.string_mismatch std_position each] in l in
      change l with l' end.
  Ltac counted Hp := calculate; try rewrite Hp; reflexivity.

  (** [est] [l] [d]: what has to be told apart in an [Iter]. *)
  Ltac parse_many_of ty wd split :=
    match goal with |- returns (fun m => eval m ?en (ELet _ (ELet _ _ (ELet _ (ECall _ [EMethod _ _ [EClos ?ps ?e]]) _)) _)) _ _ =>
      eapply (@collected _ _ _ (fun flag it => [w_iter ty w_parser wd it; VBool flag]) (inr (0, [])) (VClos (("item", inr 1) :: en) ps e))
        with (l := 0) (pa := [])
             (w_ends := fun it => VCon "" "" [w_input (it_buf it); wd (it_data it); w_end ty (it_state it)])
    end;
    [ intros flag [est ps [l b] d]; unfold iter_next; cbn [it_ps it_buf it_data it_state];
      split d; cbn [fst snd Nat.eqb];
      first [ solve [destruct est, l; counted tt]
            | destruct (p ps (mkInput l b)) as [[[l' b'] u|b' e|n| |] s'] eqn:Hp;
              [ destruct l, l', est; counted Hp
              | destruct l, est; counted Hp
              | destruct l, est; counted Hp
              | destruct l, est; (eexists; counted Hp)
              | exact Logic.I ] ]
    | intros flag [est ps [l b] d]; split d; destruct est; counted tt
    | intros flag [est ps [l b] d] u; split d; (eexists; destruct est; counted tt)
    | try reflexivity
    | reflexivity
    | destruct verbose; reflexivity
    | counted tt
    | intros t [est ps [l b] d] flag; split d; destruct est; counted tt
    | intros t [est ps [l b] d] flag; cbn [it_state it_buf it_data];
      split d; destruct l, est; (eapply returns_ends with (o := Val _); counted tt)
    | try (let HN := fresh in intros HN; match goal with HF : _ <> NoFuel |- _ => rewrite HN in HF; apply HF; reflexivity end) ].
  Ltac keep d := idtac.
  Ltac one d := destruct d as [|d].
  Ltac two d := destruct d as [[|d1] [|d2]].

  Lemma parse_many_full_says s i :
    forall fuel, parse_many_full fuel col s p i <> NoFuel ->
    returns (fun m => invoke m (inl (w_range RFull)) "parse_many" [w_input i; VObj (TParser s)]) []
                 (w_pres w_out w_err (parse_many_full fuel col s p i)).
  Proof.
    intros fuel HF. eapply returns_invoke; [reflexivity|reflexivity|reflexivity|].
    eapply returns_let; [whole|reflexivity|]. cbn [st_len st_new w_range].
    unfold parse_many_full, run_iter in *.
    parse_many_of "RangeFull.parse_many" (@w_unit I thing) keep.
  Qed.
  Lemma parse_many_from_says s a i :
    forall fuel, parse_many_from fuel col s p a i <> NoFuel ->
    returns (fun m => invoke m (inl (w_range (RFrom a))) "parse_many" [w_input i; VObj (TParser s)]) []
                 (w_pres w_out w_err (parse_many_from fuel col s p a i)).
  Proof.
    intros fuel HF. eapply returns_invoke; [reflexivity|reflexivity|reflexivity|].
    eapply returns_let; [whole|reflexivity|]. cbn [st_len st_new w_range].
    unfold parse_many_from, run_iter in *.
    parse_many_of "RangeFrom.parse_many" (fun n => @VNat I thing n) one.
  Qed.
  Lemma parse_many_to_says s a i :
    forall fuel, parse_many_to fuel col s p a i <> NoFuel ->
    returns (fun m => invoke m (inl (w_range (RTo a))) "parse_many" [w_input i; VObj (TParser s)]) []
                 (w_pres w_out w_err (parse_many_to fuel col s p a i)).
  Proof.
    intros fuel HF. eapply returns_invoke; [reflexivity|reflexivity|reflexivity|].
    assert (Hmax : Nat.max a 1 <? 1 = false) by (apply Nat.ltb_ge; lia).
    eapply returns_let; [apply ends_deep; intros; destruct verbose; evaluate_left; rewrite Hmax; reflexivity|reflexivity|].
    cbn [st_len st_new w_range]. unfold parse_many_to, run_iter in *.
    parse_many_of "RangeTo.parse_many" (fun n => @VNat I thing n) one.
  Qed.
  Lemma parse_many_exact_says s a i :
    forall fuel, parse_many_exact fuel col s p a i <> NoFuel ->
    returns (fun m => invoke m (inl (w_range (RExact a))) "parse_many" [w_input i; VObj (TParser s)]) []
                 (w_pres w_out w_err (parse_many_exact fuel col s p a i)).
  Proof.
    intros fuel HF. eapply returns_invoke; [reflexivity|reflexivity|reflexivity|].
    eapply returns_let; [whole|reflexivity|]. cbn [st_len st_new w_range].
    unfold parse_many_exact, run_iter in *.
    parse_many_of "usize.parse_many" (fun n => @VNat I thing n) one.
  Qed.
  Lemma parse_many_range_says s a c i :
    forall fuel, parse_many_range fuel col s p a c i <> NoFuel ->
    returns (fun m => invoke m (inl (w_range (RRange a c))) "parse_many" [w_input i; VObj (TParser s)]) []
                 (w_pres w_out w_err (parse_many_range fuel col s p a c i)).
  Proof.
    intros fuel HF. eapply returns_invoke; [reflexivity|reflexivity|reflexivity|].
    unfold parse_many_range in *. destruct (a <=? c) eqn:Hle; cbn [negb] in *.
    2: { eexists Panicking, _. split; [reflexivity|]. apply ends_seq_halt; [|exact Logic.I].
         apply ends_deep; intros; destruct verbose; evaluate_left; rewrite Hle; reflexivity. }
    eapply returns_seq; [apply ends_deep; intros; destruct verbose; evaluate_left; rewrite Hle; reflexivity|].
    assert (Hmax : Nat.max c 1 <? 1 = false) by (apply Nat.ltb_ge; lia).
    eapply returns_let; [apply ends_deep; intros; destruct verbose; evaluate_left; rewrite Hmax; reflexivity|reflexivity|].
    cbn [st_len st_new w_range]. unfold run_iter in *.
    parse_many_of "Range.parse_many" w_pair two.
  Qed.
  Lemma bmany_says s r i :
    forall fuel, bmany fuel col r s p i <> NoFuel ->
    returns (fun m => invoke m (inl (w_range r)) "parse_many" [w_input i; VObj (TParser s)]) [] (w_pres w_out w_err (bmany fuel col r s p i)).
  Proof.
    intros fuel. destruct r; [apply parse_many_range_says|apply parse_many_from_says|apply parse_many_full_says|apply parse_many_to_says|apply parse_many_exact_says].
  Qed.
End Many.
