(** The text of [many_till] (src/combinators/macros.rs:142-272, src/combinators/bounded.rs:194-248, 324-366, 422-455, 533-578, 655-698,
    src/combinators/mod.rs:261-270) means what the model says. *)
From Coq Require Import List Bool Arith String Lia.
From Verif Require Import Base.
From Verif Require Parsers.
From Verif Require Import Combinators Rust RustText TextModel TextProofs TextLoop TextMany.
Import ListNotations.

Set Implicit Arguments.
Local Open Scope string_scope.
Local Open Scope nat_scope.

Section Till.
  Context {P Q C U V T E N I : Type}.
  Notation thing := (thing P Q C U V T E N).
  Notation value := (value I thing).
  Variable eqb : I -> I -> bool.
  Variable verbose : bool.
  Variable p : sparser P I U E.
  Variable q : sparser Q I V N.
  Variable cnv : N -> E.
  Variable col : collector U T C.
  Context {R : Type}.
  Notation eval := (@eval I thing R (text verbose) (outside_parsers p q) eqb (w_conv cnv) (TCollect (cinit col)) (w_acts col)).
  Notation apply := (@apply I thing R (text verbose) (outside_parsers p q) eqb (w_conv cnv) (TCollect (cinit col)) (w_acts col)).
  Notation invoke := (@invoke I thing R (text verbose) (outside_parsers p q) eqb (w_conv cnv) (TCollect (cinit col)) (w_acts col)).

  (** src/combinators/macros.rs:161-166 and 168-183, of the function [ty] (tools/rust_text.py). *)
  Definition w_end_till (ty : string) (e : end_state_till I E) : value :=
    match e with
    | TError b x => VCon (ty ++ ".EndStateTill") "Error" [VSlice b; w_err x]
    | TIncomplete n => VCon (ty ++ ".EndStateTill") "Incomplete" [VNat n]
    | TEndSuccess => VCon (ty ++ ".EndStateTill") "EndSuccess" []
    end.
  Definition w_iter_till {D} (ty : string) (wd : D -> value) (it : iter_till P Q I E D) : value :=
    VRec (ty ++ ".IterTill")
      [("state", w_end_till ty (tt_state it)); ("parser", VObj (TParser (tt_ps it))); ("end", VObj (TOther (tt_es it)));
       ("buf", w_input (tt_buf it)); ("data", wd (tt_data it)); ("_t", VCon "PhantomData" "" [])].

  Lemma w_end_till_case ty e : exists c vs, w_end_till ty e = VCon (ty ++ ".EndStateTill") c vs.
  Proof. destruct e; do 2 eexists; reflexivity. Qed.

  Ltac whole := apply ends_deep; intros; destruct verbose; evaluate_left; reflexivity.
  Ltac calculate :=
    apply ends_deep; intros; destruct verbose;
    match goal with |- ?l = _ =>
      let l' := eval cbv -[Nat.max Nat.add firstn skipn List.length nth_error Parsers.position Parsers.position_st Parsers.string_mismatch std_position each] in l in
      change l with l' end.
  Ltac answers := repeat match goal with
                         | H : p _ _ = _ |- _ => rewrite H; clear H; cbv beta iota zeta
                         | H : q _ _ = _ |- _ => rewrite H; clear H; cbv beta iota zeta
                         end.
  Ltac counted := calculate; answers; reflexivity.
  (** The two parsers are called. *)
  Ltac asked := repeat (cbn [tt_state tt_ps tt_es tt_buf tt_data end_test pre_seq fst snd Nat.eqb];
                        match goal with
                        | |- context [q ?s ?i] => destruct (q s i) as [[[[] ?] ?|? ?|?| |] ?] eqn:?
                        | |- context [p ?s ?i] => destruct (p s i) as [[[[] ?] ?|? ?|?| |] ?] eqn:?
                        end);
                cbn [tt_state tt_ps tt_es tt_buf tt_data end_test pre_seq fst snd Nat.eqb].

  Ltac many_till_of ty wd split :=
    match goal with |- returns (fun m => eval m ?en (ELet _ (ELet _ _ (ELet _ (ECall _ [EMethod _ _ [EClos ?ps ?e]]) _)) _)) _ _ =>
      eapply (@collected _ _ _ _ _ _ _ _ _ eqb verbose p q cnv col _ _ _ _ (fun flag it => [w_iter_till ty wd it; VBool flag]) (inr (0, [])) (VClos (("item", inr 1) :: en) ps e))
        with (l := 0) (pa := [])
             (w_ends := fun it => VCon "" "" [w_input (tt_buf it); wd (tt_data it); w_end_till ty (tt_state it)])
    end;
    [ intros flag [est ps es [l b] d]; unfold iter_till_next, end_test, pre_seq;
      split d; destruct l; let c := fresh in let vs := fresh in let Hc := fresh in destruct (w_end_till_case ty est) as (c & vs & Hc);
      asked; unfold w_iter_till; cbn [tt_state tt_ps tt_es tt_buf tt_data]; rewrite ?Hc; first [exact Logic.I|eexists; counted|counted]
    | intros flag [est ps es [l b] d]; split d; destruct est; counted
    | intros flag [est ps es [l b] d] u; split d; (eexists; destruct est; counted)
    | try reflexivity
    | reflexivity
    | destruct verbose; reflexivity
    | counted
    | intros t [est ps es [l b] d] flag; split d; destruct est; counted
    | intros t [est ps es [l b] d] flag; cbn [tt_state tt_buf tt_data];
      split d; destruct l, est; first [eapply returns_ends with (o := Val _); counted | eapply returns_ends with (o := Panicking); counted]
    | try (let HN := fresh in intros HN; match goal with HF : _ <> NoFuel |- _ => rewrite HN in HF; apply HF; reflexivity end) ].
  Ltac keep d := idtac.
  Ltac one d := destruct d as [|d].
  Ltac two d := destruct d as [[|d1] [|d2]].

  Lemma many_till_full_says s e i :
    forall fuel, many_till_full fuel col s e p q i <> NoFuel ->
    returns (fun m => invoke m (inl (w_range RFull)) "many_till" [w_input i; VObj (TParser s); VObj (TOther e)]) []
                 (w_pres w_out w_err (many_till_full fuel col s e p q i)).
  Proof.
    intros fuel HF. eapply returns_invoke; [reflexivity|reflexivity|reflexivity|].
    eapply returns_let; [whole|reflexivity|]. cbn [st_len st_new w_range].
    unfold many_till_full, run_iter_till in *.
    many_till_of "RangeFull.many_till" (@w_unit I thing) keep.
  Qed.
  Lemma many_till_from_says s e a i :
    forall fuel, many_till_from fuel col s e p q a i <> NoFuel ->
    returns (fun m => invoke m (inl (w_range (RFrom a))) "many_till" [w_input i; VObj (TParser s); VObj (TOther e)]) []
                 (w_pres w_out w_err (many_till_from fuel col s e p q a i)).
  Proof.
    intros fuel HF. eapply returns_invoke; [reflexivity|reflexivity|reflexivity|].
    eapply returns_let; [whole|reflexivity|]. cbn [st_len st_new w_range].
    unfold many_till_from, run_iter_till in *.
    many_till_of "RangeFrom.many_till" (fun n => @VNat I thing n) one.
  Qed.
  Lemma many_till_to_says s e a i :
    forall fuel, many_till_to fuel col s e p q a i <> NoFuel ->
    returns (fun m => invoke m (inl (w_range (RTo a))) "many_till" [w_input i; VObj (TParser s); VObj (TOther e)]) []
                 (w_pres w_out w_err (many_till_to fuel col s e p q a i)).
  Proof.
    intros fuel HF. eapply returns_invoke; [reflexivity|reflexivity|reflexivity|].
    assert (Hmax : Nat.max a 1 <? 1 = false) by (apply Nat.ltb_ge; lia).
    eapply returns_let; [apply ends_deep; intros; destruct verbose; evaluate_left; rewrite Hmax; reflexivity|reflexivity|].
    cbn [st_len st_new w_range]. unfold many_till_to, run_iter_till in *.
    many_till_of "RangeTo.many_till" (fun n => @VNat I thing n) one.
  Qed.
  Lemma many_till_exact_says s e a i :
    forall fuel, many_till_exact fuel col s e p q a i <> NoFuel ->
    returns (fun m => invoke m (inl (w_range (RExact a))) "many_till" [w_input i; VObj (TParser s); VObj (TOther e)]) []
                 (w_pres w_out w_err (many_till_exact fuel col s e p q a i)).
  Proof.
    intros fuel HF. eapply returns_invoke; [reflexivity|reflexivity|reflexivity|].
    eapply returns_let; [whole|reflexivity|]. cbn [st_len st_new w_range].
    unfold many_till_exact, run_iter_till in *.
    many_till_of "usize.many_till" (fun n => @VNat I thing n) one.
  Qed.
  Lemma many_till_range_says s e a c i :
    forall fuel, many_till_range fuel col s e p q a c i <> NoFuel ->
    returns (fun m => invoke m (inl (w_range (RRange a c))) "many_till" [w_input i; VObj (TParser s); VObj (TOther e)]) []
                 (w_pres w_out w_err (many_till_range fuel col s e p q a c i)).
  Proof.
    intros fuel HF. eapply returns_invoke; [reflexivity|reflexivity|reflexivity|].
    unfold many_till_range in *. destruct (a <=? c) eqn:Hle; cbn [negb] in *.
    2: { eexists Panicking, _. split; [reflexivity|]. apply ends_seq_halt; [|exact Logic.I].
         apply ends_deep; intros; destruct verbose; evaluate_left; rewrite Hle; reflexivity. }
    eapply returns_seq; [apply ends_deep; intros; destruct verbose; evaluate_left; rewrite Hle; reflexivity|].
    assert (Hmax : Nat.max c 1 <? 1 = false) by (apply Nat.ltb_ge; lia).
    eapply returns_let; [apply ends_deep; intros; destruct verbose; evaluate_left; rewrite Hmax; reflexivity|reflexivity|].
    cbn [st_len st_new w_range]. unfold run_iter_till in *.
    many_till_of "Range.many_till" (@w_pair P Q C U V T E N I) two.
  Qed.
  Lemma bmany_till_says s e r i :
    forall fuel, bmany_till fuel col r s e p q i <> NoFuel ->
    returns (fun m => invoke m (inl (w_range r)) "many_till" [w_input i; VObj (TParser s); VObj (TOther e)]) []
      (w_pres w_out w_err (bmany_till fuel col r s e p q i)).
  Proof.
    intros fuel. destruct r; [apply many_till_range_says|apply many_till_from_says|apply many_till_full_says|apply many_till_to_says|apply many_till_exact_says].
  Qed.
End Till.
