(** The text of [sep_by] and [sep_by1] (src/combinators/mod.rs:182-244) means what the model says; calls of the other functions of
    src/combinators/mod.rs and src/combinators/bounded.rs:717-773 that collect. *)
From Coq Require Import List Bool Arith String Lia.
From Verif Require Import Base.
From Verif Require Parsers.
From Verif Require Import Combinators Rust RustText TextModel TextProofs TextLoop TextMany TextTill.
Import ListNotations.

Set Implicit Arguments.
Local Open Scope string_scope.
Local Open Scope nat_scope.

Section Sep.
  Context {P Q C U V T E N I : Type}.
  Notation thing := (thing P Q C U V T E N).
  Notation value := (value I thing).
  Variable eqb : I -> I -> bool.
  Variable verbose : bool.
  Variable p : sparser P I U E.
  Variable q : sparser Q I V N.
  Variable cnv : N -> E.
  Variable col : collector U T C.
  Context {R : Type}.
  Notation eval := (@eval I thing R (text verbose) (outside_parsers p q) eqb (w_conv cnv) (TCollect (cinit col)) (w_acts col)).
  Notation apply := (@apply I thing R (text verbose) (outside_parsers p q) eqb (w_conv cnv) (TCollect (cinit col)) (w_acts col)).
  Notation invoke := (@invoke I thing R (text verbose) (outside_parsers p q) eqb (w_conv cnv) (TCollect (cinit col)) (w_acts col)).

  Lemma w_end_case ty (e : end_state I E) : exists c vs, @w_end P Q C U V T E N I ty e = VCon (ty ++ ".EndState") c vs.
  Proof. destruct e; do 2 eexists; reflexivity. Qed.

  Ltac whole := apply ends_deep; intros; destruct verbose; evaluate_left; reflexivity.
  Ltac calculate :=
    apply ends_deep; intros; destruct verbose;
    match goal with |- ?l = _ =>
      let l' := eval cbv -[Nat.max Nat.add firstn skipn List.length nth_error Parsers.position Parsers.position_st Parsers.string_mismatch std_position each] in l in
      change l with l' end.
  Ltac answers := repeat match goal with
                         | H : p _ _ = _ |- _ => rewrite H; clear H; cbv beta iota zeta
                         | H : q _ _ = _ |- _ => rewrite H; clear H; cbv beta iota zeta
                         end.
  Ltac counted := calculate; answers; reflexivity.
  Ltac simplified := cbn [it_state it_ps it_buf it_data fst snd Nat.eqb Base.map ret then_ bind inspect map_err].
  Ltac asked := repeat (simplified;
                        match goal with
                        | |- context [q ?s ?i] => destruct (q s i) as [[[[] ?] ?|? ?|?| |] ?] eqn:?
                        | |- context [p ?s ?i] => destruct (p s i) as [[[[] ?] ?|? ?|?| |] ?] eqn:?
                        end); simplified.
  Ltac keep d := idtac.
  Ltac one d := destruct d as [|d].

  Ltac sep_by_of ty wd split :=
    match goal with |- returns (fun m => eval m ?en (ELet _ (ELet _ _ (ELet _ (ECall _ [EMethod _ _ [EClos ?ps ?e]]) _)) _)) [_; _; _; VRec _ [_; (_, ?cl); _; _; _]] _ =>
      eapply (@collected _ _ _ _ _ _ _ _ _ eqb verbose p q cnv col _ _ _ _
                (fun flag it => [VObj (TParser (snd (fst (it_ps it)))); VObj (TOther (snd (it_ps it))); VBool (fst (fst (it_ps it)));
                                 w_iter ty (fun _ => cl) wd it; VBool flag]) (inr (3, [])) (VClos (("item", inr 4) :: en) ps e))
        with (l := 3) (pa := [])
             (w_ends := fun it => VCon "" "" [w_input (it_buf it); wd (it_data it); w_end ty (it_state it)])
    end;
    [ intros flag [est [[item sp'] ss'] [l b] d]; unfold iter_next, sep_item;
      split d; destruct l, item; let c := fresh in let vs := fresh in let Hc := fresh in destruct (w_end_case ty est) as (c & vs & Hc);
      asked; unfold w_iter; simplified; rewrite ?Hc; first [exact Logic.I|eexists; counted|counted]
    | intros flag [est [[item sp'] ss'] [l b] d]; split d; destruct est; counted
    | intros flag [est [[item sp'] ss'] [l b] d] u; split d; (eexists; destruct est; counted)
    | try reflexivity
    | reflexivity
    | destruct verbose; reflexivity
    | counted
    | intros t [est [[item sp'] ss'] [l b] d] flag; split d; destruct est; counted
    | intros t [est [[item sp'] ss'] [l b] d] flag; cbn [it_state it_buf it_data];
      split d; destruct l, est; (eapply returns_ends with (o := Val _); counted)
    | try (let HN := fresh in intros HN; match goal with HF : _ <> NoFuel |- _ => rewrite HN in HF; apply HF; reflexivity end) ].

  Lemma sep_by_returns sp ss i en' s' :
    bind_all (fn_params text_sep_by) [w_input i; VObj (TParser sp); VObj (TOther ss)] [] [] = Some (en', s') ->
    forall fuel, sep_by fuel col cnv sp ss p q i <> NoFuel ->
    returns (fun m => eval m en' (fn_body text_sep_by)) s' (w_pres w_out w_err (sep_by fuel col cnv sp ss p q i)).
  Proof.
    intros [= <- <-] fuel HF. cbn [text_sep_by fn_body st_len st_new].
    eapply returns_let; [whole|reflexivity|]. eapply returns_let; [whole|reflexivity|]. cbn [st_len st_new w_range].
    eapply returns_call; [whole|whole|]. eapply returns_apply; [reflexivity|reflexivity|].
    eapply returns_method; [whole|whole|]. eapply returns_invoke; [reflexivity|reflexivity|reflexivity|].
    eapply returns_let; [whole|reflexivity|]. cbn [st_len st_new w_range].
    unfold sep_by, bmany, parse_many_full, run_iter in *.
    sep_by_of "RangeFull.parse_many" (@w_unit I thing) keep.
  Qed.

  Lemma sep_by1_returns sp ss i en' s' :
    bind_all (fn_params text_sep_by1) [w_input i; VObj (TParser sp); VObj (TOther ss)] [] [] = Some (en', s') ->
    forall fuel, sep_by1 fuel col cnv sp ss p q i <> NoFuel ->
    returns (fun m => eval m en' (fn_body text_sep_by1)) s' (w_pres w_out w_err (sep_by1 fuel col cnv sp ss p q i)).
  Proof.
    intros [= <- <-] fuel HF. cbn [text_sep_by1 fn_body st_len st_new].
    eapply returns_let; [whole|reflexivity|]. eapply returns_let; [whole|reflexivity|]. cbn [st_len st_new w_range].
    eapply returns_call; [whole|whole|]. eapply returns_apply; [reflexivity|reflexivity|].
    eapply returns_method; [whole|whole|]. eapply returns_invoke; [reflexivity|reflexivity|reflexivity|].
    eapply returns_let; [whole|reflexivity|]. cbn [st_len st_new w_range].
    unfold sep_by1, bmany, parse_many_from, run_iter in *.
    sep_by_of "RangeFrom.parse_many" (fun n => @VNat I thing n) one.
  Qed.
End Sep.

Section Calls.
  Context {P Q C U V T E N I : Type}.
  Notation thing := (thing P Q C U V T E N).
  Notation value := (value I thing).
  Variable eqb : I -> I -> bool.
  Variable verbose : bool.
  Variable p : sparser P I U E.
  Variable q : sparser Q I V N.
  Variable cnv : N -> E.
  Variable col : collector U T C.
  Notation says ty f vs r :=
    (settles (fun n => call (text verbose) (outside_parsers p q) eqb (w_conv cnv) (TCollect (cinit col)) (w_acts col) n ty f vs) r).
  Ltac whole := apply ends_deep; intros; destruct verbose; evaluate_left; reflexivity.

  Lemma text_bounded_many_says fuel s r i :
    bmany fuel col r s p i <> NoFuel ->
    says "bounded" "many" [w_input i; w_range r; VObj (TParser s)] (w_pres w_out w_err (bmany fuel col r s p i)).
  Proof.
    intros HF. eapply settles_apply; [reflexivity|reflexivity|].
    eapply returns_method with (r := inl (w_range r)) (s1 := []); [destruct r; whole|whole|]. apply bmany_says. exact HF.
  Qed.
  Lemma text_bounded_many_till_says fuel s e r i :
    bmany_till fuel col r s e p q i <> NoFuel ->
    says "bounded" "many_till" [w_input i; w_range r; VObj (TParser s); VObj (TOther e)] (w_pres w_out w_err (bmany_till fuel col r s e p q i)).
  Proof.
    intros HF. eapply settles_apply; [reflexivity|reflexivity|].
    eapply returns_method with (r := inl (w_range r)) (s1 := []); [destruct r; whole|whole|]. apply bmany_till_says. exact HF.
  Qed.
  Lemma text_many_says fuel s i :
    many fuel col s p i <> NoFuel -> says "" "many" [w_input i; VObj (TParser s)] (w_pres w_out w_err (many fuel col s p i)).
  Proof.
    intros HF. eapply settles_apply; [reflexivity|reflexivity|].
    eapply returns_call; [whole|whole|]. eapply returns_apply; [reflexivity|reflexivity|].
    eapply returns_method; [whole|whole|]. apply (@bmany_says _ _ _ _ _ _ _ _ _ eqb verbose p q cnv col _ s RFull). exact HF.
  Qed.
  Lemma text_many1_says fuel s i :
    many1 fuel col s p i <> NoFuel -> says "" "many1" [w_input i; VObj (TParser s)] (w_pres w_out w_err (many1 fuel col s p i)).
  Proof.
    intros HF. eapply settles_apply; [reflexivity|reflexivity|].
    eapply returns_call; [whole|whole|]. eapply returns_apply; [reflexivity|reflexivity|].
    eapply returns_method; [whole|whole|]. apply (@bmany_says _ _ _ _ _ _ _ _ _ eqb verbose p q cnv col _ s (RFrom 1)). exact HF.
  Qed.
  Lemma text_count_says fuel num s i :
    count fuel col num s p i <> NoFuel ->
    says "" "count" [w_input i; VNat num; VObj (TParser s)] (w_pres w_out w_err (count fuel col num s p i)).
  Proof.
    intros HF. eapply settles_apply; [reflexivity|reflexivity|].
    eapply returns_call; [whole|whole|]. eapply returns_apply; [reflexivity|reflexivity|].
    eapply returns_method; [whole|whole|]. apply (@bmany_says _ _ _ _ _ _ _ _ _ eqb verbose p q cnv col _ s (RExact num)). exact HF.
  Qed.
  Lemma text_many_till_says fuel s e i :
    many_till fuel col s e p q i <> NoFuel ->
    says "" "many_till" [w_input i; VObj (TParser s); VObj (TOther e)] (w_pres w_out w_err (many_till fuel col s e p q i)).
  Proof.
    intros HF. eapply settles_apply; [reflexivity|reflexivity|].
    eapply returns_call; [whole|whole|]. eapply returns_apply; [reflexivity|reflexivity|].
    eapply returns_method; [whole|whole|]. apply (@bmany_till_says _ _ _ _ _ _ _ _ _ eqb verbose p q cnv col _ s e RFull). exact HF.
  Qed.
  Lemma text_sep_by_says fuel sp ss i :
    sep_by fuel col cnv sp ss p q i <> NoFuel ->
    says "" "sep_by" [w_input i; VObj (TParser sp); VObj (TOther ss)] (w_pres w_out w_err (sep_by fuel col cnv sp ss p q i)).
  Proof.
    intros HF. eapply settles_apply; [reflexivity|reflexivity|]. apply sep_by_returns; [reflexivity|exact HF].
  Qed.
  Lemma text_sep_by1_says fuel sp ss i :
    sep_by1 fuel col cnv sp ss p q i <> NoFuel ->
    says "" "sep_by1" [w_input i; VObj (TParser sp); VObj (TOther ss)] (w_pres w_out w_err (sep_by1 fuel col cnv sp ss p q i)).
  Proof.
    intros HF. eapply settles_apply; [reflexivity|reflexivity|]. apply sep_by1_returns; [reflexivity|exact HF].
  Qed.
End Calls.
