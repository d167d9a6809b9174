(** The text of src/parsers.rs, src/input.rs, src/parse_result.rs, src/parse.rs means what the model says. *)
From Coq Require Import List Bool Arith String Lia.
From Verif Require Import Base.
From Verif Require Parsers.
From Verif Require Import Combinators Rust RustText TextModel.
Import ListNotations.

Set Implicit Arguments.
Local Open Scope string_scope.
Local Open Scope nat_scope.

(** A fuel that is deep enough for every piece of text without loops. *)
Definition deep (k : nat) : nat := S (S (S (S (S (S (S (S (S (S (S (S (S (S (S (S (S (S (S (S (S (S (S (S (S (S (S (S (S (S (S (S (S (S (S (S (S (S (S (S k))))))))))))))))))))))))))))))))))))))).

Lemma deep_le : forall m, deep 0 <= m -> exists k, m = deep k.
Proof.
  intros m H. exists (m - deep 0). unfold deep in *. lia.
Qed.

Lemma settles_deep {A : Type} (g : nat -> A) (r : A) : (forall k, g (deep k) = r) -> settles g r.
Proof.
  intros H. exists (deep 0). intros m Hm. destruct (deep_le Hm) as [k ->]. apply H.
Qed.

Lemma std_position_from (I O R : Type) (app : I -> @comp I O R (value I O)) (g : I -> bool) s :
  (forall x k, app x s k = k (Val (VBool (g x))) s) ->
  forall l n k, std_position app l n s k = k (Val (w_option (fun m => VNat (n + m)) (Parsers.position g l))) s.
Proof.
  intros H l. induction l as [|x l IH]; intros n k; [reflexivity|].
  cbn. unfold and_then, branch. rewrite H. destruct (g x); cbn.
  - unfold give. rewrite Nat.add_0_r. reflexivity.
  - rewrite IH. destruct (Parsers.position g l); cbn; [|reflexivity]. rewrite Nat.add_succ_r. reflexivity.
Qed.

Lemma std_position_says (I O R : Type) (app : I -> @comp I O R (value I O)) (g : I -> bool) s :
  (forall x k, app x s k = k (Val (VBool (g x))) s) ->
  forall l k, std_position app l 0 s k = match Parsers.position g l with Some n => k (Val (some (VNat n))) s | None => k (Val none) s end.
Proof. intros H l k. rewrite (std_position_from _ _ H). destruct (Parsers.position g l); reflexivity. Qed.

Lemma position_ext {A : Type} (f g : A -> bool) : (forall x, f x = g x) -> forall l, Parsers.position f l = Parsers.position g l.
Proof. intros H l. induction l as [|x l IH]; [reflexivity|]. cbn. rewrite H, IH. reflexivity. Qed.

Ltac evaluate := cbv -[Nat.leb Nat.ltb Nat.eqb Nat.sub Nat.max Nat.add firstn skipn List.length nth_error Parsers.position Parsers.position_st Parsers.string_mismatch std_position each].

Ltac evaluate_left := match goal with |- ?l = _ =>
  let l' := eval cbv -[Nat.leb Nat.ltb Nat.eqb Nat.sub Nat.max Nat.add firstn skipn List.length nth_error Parsers.position Parsers.position_st Parsers.string_mismatch std_position each] in l in change l with l' end.

(** * Evaluation in steps *)

Section Steps.
  Context {I O R : Type}.
  Variable fns : list (string * string * fndef).
  Variable foreign : O -> string -> list (value I O) -> answered I O.
  Variable eqb : I -> I -> bool.
  Variable conv : value I O -> value I O.
  Variable starts : O.
  Variable acts : O -> caction (value I O) (value I O) O.
  Notation eval := (@eval I O R fns foreign eqb conv starts acts).
  Notation place := (@place I O R fns foreign eqb conv starts acts).
  Notation apply := (@apply I O R fns foreign eqb conv starts acts).
  Notation invoke := (@invoke I O R fns foreign eqb conv starts acts).
  Notation loop := (@loop I O R fns foreign eqb conv starts acts).
  Notation gather := (@gather I O R fns foreign eqb conv starts acts).

  Lemma step_match n en e arms s k v s1 :
    (forall K, eval n en e s K = K (Val v) s1) -> (forall K, @plain I O R v s1 K = K (Val v) s1) ->
    eval (S n) en (EMatch e arms) s k = arms_of (eval n) en v arms s1 k.
  Proof. intros H Hv. cbn [Rust.eval]. unfold and_then. rewrite H, Hv. reflexivity. Qed.

  Lemma step_let n en p e rest s k v s1 en' s2 :
    (forall K, eval n en e s K = K (Val v) s1) -> bind_pat p v en s1 = Some (en', s2) ->
    eval (S n) en (ELet p e rest) s k = eval n en' rest s2 (fun o s'' => k o (st_cut s'' (st_len s1))).
  Proof. intros H Hv. cbn [Rust.eval]. unfold and_then. rewrite H, Hv. reflexivity. Qed.

  Lemma step_seq n en e rest s k v s1 :
    (forall K, eval n en e s K = K (Val v) s1) -> eval (S n) en (ESeq e rest) s k = eval n en rest s1 k.
  Proof. intros H. cbn [Rust.eval]. unfold and_then. rewrite H. reflexivity. Qed.

  Lemma step_seq_return n en e rest s k v s1 :
    (forall K, eval n en e s K = K (Return v) s1) -> eval (S n) en (ESeq e rest) s k = k (Return v) s1.
  Proof. intros H. cbn [Rust.eval]. unfold and_then. rewrite H. reflexivity. Qed.

  Lemma step_for n en x lo hi e s k a b :
    (forall K, eval n en lo s K = K (Val (VNat a)) s) -> (forall K, eval n en hi s K = K (Val (VNat b)) s) ->
    eval (S n) en (EFor x lo hi e) s k = each (fun j => eval n ((x, inl (VNat j)) :: en) e) (b - a) a s k.
  Proof. intros Ha Hb. cbn [Rust.eval]. unfold and_then. rewrite Ha. cbn [as_nat]. unfold give at 1. rewrite Hb. reflexivity. Qed.

  Lemma step_apply n ty f ps e vs s k by_ref en' s' :
    find_fn fns ty f = Some (mkFn by_ref ps e) -> bind_all ps vs [] s = Some (en', s') ->
    apply (S n) (inl (VFn ty f)) vs s k =
    eval n en' e s' (fun o s'' => match o with
                                  | Return v => k (Val v) (st_cut s'' (st_len s))
                                  | Break => k Wrong (st_cut s'' (st_len s))
                                  | o => k o (st_cut s'' (st_len s))
                                  end).
  Proof. intros H Hb. cbn [Rust.apply look]. unfold and_then, give. rewrite H. unfold within, catch. rewrite Hb. reflexivity. Qed.

  Lemma step_position n en e c s k l cv :
    (forall K, place n en e s K = K (Val (inl (VSlice l))) s) -> (forall K, eval n en c s K = K (Val cv) s) ->
    find_fn fns "slice" "position" = None ->
    eval (S n) en (EMethod e "position" [c]) s k =
    match n with
    | 0 => k Tired s
    | S n => std_position (fun x => and_then (spot_of (inl cv)) (fun q => apply n q [VItem x])) l 0 s k
    end.
  Proof.
    intros H Hc Hf. cbn [Rust.eval]. unfold and_then. rewrite H, Hc. destruct n as [|n]; [reflexivity|].
    cbn [give Rust.invoke look and_then]. unfold and_then, give. cbn [type_name]. rewrite Hf. reflexivity.
  Qed.
End Steps.

Lemma settles_deeper {A : Type} (g : nat -> A) (r : A) : (forall k, g (S (S (S (S (S (S (deep k))))))) = r) -> settles g r.
Proof.
  intros H. exists (S (S (S (S (S (S (deep 0))))))). intros m Hm.
  do 6 (destruct m as [|m]; [exfalso; unfold deep in Hm; lia|]).
  destruct (@deep_le m) as [k ->]; [unfold deep in *; lia|apply H].
Qed.

Ltac piece := intro; evaluate_left; reflexivity.

Lemma position_le {A : Type} (f : A -> bool) (l : list A) n : Parsers.position f l = Some n -> n <= List.length l.
Proof.
  revert n. induction l as [|x l IH]; intros n; cbn; [discriminate|].
  destruct (f x); [intros [= <-]; lia|]. destruct (Parsers.position f l) as [m|]; cbn; [|discriminate].
  intros [= <-]. specialize (IH m eq_refl). lia.
Qed.

Lemma std_position_state (I O R S : Type) (app : I -> @comp I O R (value I O)) (step : S -> I -> bool * S) (live : S -> Prop) (st : S -> list (value I O)) :
  (forall x a k, live a -> app x (st a) k = k (Val (VBool (fst (step a x)))) (st (snd (step a x)))) ->
  (forall x a, live a -> fst (step a x) = false -> live (snd (step a x))) ->
  forall l n a s k, s = st a -> live a ->
    std_position app l n s k =
    k (Val (w_option (fun m => VNat (n + m)) (fst (Parsers.position_st step a l)))) (st (snd (Parsers.position_st step a l))).
Proof.
  intros H HL l. induction l as [|x l IH]; intros n a s k -> Ha; [reflexivity|].
  cbn [std_position Parsers.position_st]. unfold and_then, branch. rewrite (H x a _ Ha). specialize (HL x a Ha).
  destruct (step a x) as [[] a'] eqn:Hs; cbn [fst snd] in *.
  - cbn. unfold give. rewrite Nat.add_0_r. reflexivity.
  - rewrite (IH _ a' _ _ eq_refl (HL eq_refl)). destruct (Parsers.position_st step a' l) as [[m|] a'']; cbn; [|reflexivity].
    rewrite Nat.add_succ_r. reflexivity.
Qed.

Lemma position_st_le {A S : Type} (step : S -> A -> bool * S) (l : list A) : forall s n, fst (Parsers.position_st step s l) = Some n -> n <= List.length l.
Proof.
  induction l as [|x l IH]; intros s n; cbn; [discriminate|].
  destruct (step s x) as [[] s'].
  - intros [= <-]; lia.
  - specialize (IH s'). destruct (Parsers.position_st step s' l) as [[m|] s'']; cbn in *; [|discriminate].
    intros [= <-]. specialize (IH m eq_refl). lia.
Qed.

Section Parsers.
  Context {I : Type}.
  Variable verbose : bool.
  Variable eqb : I -> I -> bool.

  Notation says O foreign starts acts f vs r := (settles (fun n => @call I O (text verbose) foreign eqb (fun v => v) starts acts n "" f vs) r).

  Lemma text_any_says O foreign starts acts i :
    says O foreign starts acts "any" [w_input i] (w_pres VItem w_error (Parsers.any i)).
  Proof. destruct i as [[] [|x b]]; apply settles_deep; intro k; destruct verbose; reflexivity. Qed.

  Lemma text_satisfy_says f starts acts i :
    says unit (outside_pred f) starts acts "satisfy" [w_input i; VObj tt] (w_pres VItem w_error (Parsers.satisfy verbose f i)).
  Proof.
    destruct i as [[] [|x b]]; apply settles_deep; intro k; destruct verbose; evaluate; try reflexivity; destruct (f x); reflexivity.
  Qed.

  Lemma text_satisfy_with_says {T} (f : I -> T) (p : T -> bool) starts acts i :
    says _ (outside_with f p) starts acts "satisfy_with" [w_input i; VObj WithMap; VObj WithPred]
      (w_pres (fun t => VObj (WithValue t)) w_error (Parsers.satisfy_with verbose f p i)).
  Proof.
    destruct i as [[] [|x b]]; apply settles_deep; intro k; destruct verbose; evaluate; try reflexivity; destruct (p (f x)); reflexivity.
  Qed.

  Lemma text_token_says O foreign starts acts t i :
    says O foreign starts acts "token" [w_input i; VItem t] (w_pres VItem w_error (Parsers.token verbose eqb t i)).
  Proof.
    destruct i as [[] [|x b]]; apply settles_deep; intro k; destruct verbose; evaluate; try reflexivity; destruct (eqb t x); reflexivity.
  Qed.

  Lemma text_not_token_says O foreign starts acts t i :
    says O foreign starts acts "not_token" [w_input i; VItem t] (w_pres VItem w_error (Parsers.not_token verbose eqb t i)).
  Proof.
    destruct i as [[] [|x b]]; apply settles_deep; intro k; destruct verbose; evaluate; try reflexivity; destruct (eqb t x); reflexivity.
  Qed.

  Lemma text_peek_says O foreign starts acts i :
    says O foreign starts acts "peek" [w_input i] (w_pres (w_option VItem) w_error (Parsers.peek i)).
  Proof. destruct i as [[] [|x b]]; apply settles_deep; intro k; destruct verbose; reflexivity. Qed.

  Lemma text_peek_next_says O foreign starts acts i :
    says O foreign starts acts "peek_next" [w_input i] (w_pres VItem w_error (Parsers.peek_next i)).
  Proof. destruct i as [[] [|x b]]; apply settles_deep; intro k; destruct verbose; reflexivity. Qed.

  Lemma text_take_says O foreign starts acts num i :
    says O foreign starts acts "take" [w_input i; VNat num] (w_pres VSlice w_error (Parsers.take num i)).
  Proof.
    destruct i as [[] b]; apply settles_deep; intro k; destruct verbose; evaluate; destruct (Nat.leb_spec num (List.length b)) as [H|H];
      try (replace (List.length b <? num) with false by (symmetry; apply Nat.ltb_ge; assumption));
      try (replace (num <? List.length b) with false by (symmetry; apply Nat.ltb_ge; lia)); reflexivity.
  Qed.

  Lemma text_eof_says O foreign starts acts i :
    says O foreign starts acts "eof" [w_input i] (w_pres (fun _ => VUnit) w_error (Parsers.eof verbose i)).
  Proof. destruct i as [[] [|x b]]; apply settles_deep; intro k; destruct verbose; reflexivity. Qed.

  Lemma text_take_remainder_says O foreign starts acts i :
    says O foreign starts acts "take_remainder" [w_input i] (w_pres VSlice w_error (Parsers.take_remainder i)).
  Proof. destruct i as [[] [|x b]]; apply settles_deep; intro k; destruct verbose; reflexivity. Qed.

  Ltac bounds := repeat match goal with
    | H : Parsers.position _ ?b = Some ?n |- context [List.length ?b <? ?n] =>
        replace (List.length b <? n) with false by (symmetry; apply Nat.ltb_ge; apply (position_le _ _ H))
    | |- context [0 + ?n] => change (0 + n) with n
    | H : ?n <= List.length ?b |- context [List.length ?b <? ?n] => rewrite (proj2 (Nat.ltb_ge _ _) H)
    | |- context [?n <? 0] => change (n <? 0) with false
    | |- context [?n - 0] => rewrite (Nat.sub_0_r n)
    | |- context [skipn 0 ?b] => change (skipn 0 b) with b
    end.

  Ltac searching g :=
    unfold call; erewrite step_apply by reflexivity;
    erewrite step_let; [|piece|reflexivity];
    erewrite step_match; [|intro; erewrite step_position; [|piece|piece|reflexivity]; cbn [deep];
                           rewrite (@std_position_says _ _ _ _ g [])  by (intros; evaluate_left; reflexivity);
                           match goal with H : Parsers.position _ _ = _ |- _ => rewrite H end; reflexivity|piece].

  Lemma text_take_while_says f starts acts i :
    says unit (outside_pred f) starts acts "take_while" [w_input i; VObj tt] (w_pres VSlice w_error (Parsers.take_while f i)).
  Proof.
    pose (g := fun c => Bool.eqb (f c) false).
    destruct i as [[] b]; apply settles_deeper; intro k; unfold Parsers.take_while; cbn [buf last]; fold g;
      destruct (Parsers.position g b) as [n|] eqn:Hp; destruct verbose; searching g; evaluate; bounds; reflexivity.
  Qed.

  Lemma text_take_while1_says f starts acts i :
    says unit (outside_pred f) starts acts "take_while1" [w_input i; VObj tt] (w_pres VSlice w_error (Parsers.take_while1 verbose f i)).
  Proof.
    pose (g := fun c => Bool.eqb (f c) false).
    destruct i as [[] b]; apply settles_deeper; intro k; unfold Parsers.take_while1; cbn [buf last]; fold g;
      destruct (Parsers.position g b) as [[|n]|] eqn:Hp; destruct verbose; searching g; evaluate; bounds; try reflexivity;
      destruct (0 <? List.length b); reflexivity.
  Qed.

  Lemma text_take_till_says f starts acts i :
    says unit (outside_pred f) starts acts "take_till" [w_input i; VObj tt] (w_pres VSlice w_error (Parsers.take_till f i)).
  Proof.
    destruct i as [[] b]; apply settles_deeper; intro k; unfold Parsers.take_till; cbn [buf last];
      destruct (Parsers.position f b) as [n|] eqn:Hp; destruct verbose; searching f; evaluate; bounds; reflexivity.
  Qed.

  Ltac scanning stp live st b s0 :=
    unfold call; erewrite step_apply by reflexivity;
    erewrite step_let; [|piece|reflexivity]; cbn [bind_pat bind_all st_new st_len];
    erewrite step_let; [|piece|reflexivity]; cbn [bind_pat bind_all st_new st_len];
    erewrite step_match;
    [|intro K; erewrite step_position; [|piece|piece|reflexivity]; cbn [deep];
      rewrite (@std_position_state _ _ _ _ _ stp live st) with (a := s0);
      [match goal with H : Parsers.position_st _ _ _ = _ |- _ => rewrite H end; reflexivity| | |reflexivity| ]|piece].

  Lemma text_run_scanner_says {S} (f : S -> I -> option S) s0 starts acts i :
    says _ (outside_scan f) starts acts "run_scanner" [w_input i; VObj (ScanState s0); VObj ScanStep]
      (w_pres (fun r => VCon "" "" [VSlice (fst r); VObj (ScanState (snd r))]) w_error (Parsers.run_scanner s0 f i)).
  Proof.
    pose (stp := fun (state : S) (c : I) => match f state c with None => (true, state) | Some v => (false, v) end).
    destruct i as [[] b]; apply settles_deeper; intro k; unfold Parsers.run_scanner; cbn [buf last]; fold stp;
      pose proof (@position_st_le _ _ stp b s0) as Hle;
      destruct (Parsers.position_st stp s0 b) as [[n|] s1] eqn:Hp; cbn [fst snd] in Hle; try specialize (Hle n eq_refl); destruct verbose.
    all: scanning stp (fun _ : S => True) (fun a : S => [VObj (I := I) ScanStep; VObj (ScanState a)]) b s0;
      [evaluate; bounds; reflexivity|intros x a K' _; evaluate_left; unfold stp; destruct (f a x); reflexivity|auto|exact Logic.I].
  Qed.

  Lemma text_scan_says {S} (f : S -> I -> option S) s0 starts acts i :
    says _ (outside_scan f) starts acts "scan" [w_input i; VObj (ScanState s0); VObj ScanStep]
      (w_pres VSlice w_error (Parsers.scan s0 f i)).
  Proof.
    pose (stp := fun (st : option (option S)) (c : I) =>
      match st with
      | Some (Some s0) => let st' := f s0 c in (match st' with None => true | Some _ => false end, Some st')
      | _ => (true, None)
      end).
    pose (store := fun st : option (option S) => [VObj (I := I) ScanStep; match st with Some (Some s) => some (VObj (ScanState s)) | _ => none end]).
    pose (live := fun st : option (option S) => exists s, st = Some (Some s)).
    assert (Hlive : forall x a, live a -> fst (stp a x) = false -> live (snd (stp a x))).
    { intros x a [s ->]. unfold stp, live. destruct (f s x) as [s'|]; cbn; [eauto|discriminate]. }
    assert (Hend : forall b a, live a -> snd (Parsers.position_st stp a b) <> None).
    { induction b as [|x b IH]; intros a Ha; [destruct Ha as [s ->]; discriminate|]. cbn.
      specialize (Hlive x a Ha). destruct Ha as [s ->]. unfold stp in Hlive. cbn in *. destruct (f s x) as [s'|]; cbn; [|discriminate].
      specialize (IH (Some (Some s')) (Hlive eq_refl)). destruct (Parsers.position_st stp (Some (Some s')) b) as [r a']. exact IH. }
    destruct i as [[] b]; apply settles_deeper; intro k; unfold Parsers.scan; cbn [buf last]; fold stp;
      pose proof (@position_st_le _ _ stp b (Some (Some s0))) as Hle;
      specialize (Hend b (Some (Some s0)) (ex_intro _ s0 eq_refl));
      destruct (Parsers.position_st stp (Some (Some s0)) b) as [[n|] [s1|]] eqn:Hp; cbn [fst snd] in *; try specialize (Hle n eq_refl); destruct verbose;
      try (exfalso; apply Hend; reflexivity).
    all: scanning stp live store b (Some (Some s0));
      [evaluate; bounds; reflexivity|intros x a K' [s ->]; evaluate_left; unfold store, stp; destruct (f s x); reflexivity|exact Hlive|exists s0; reflexivity].
  Qed.

  Lemma each_string (O R : Type) (ev : nat -> @comp I O R (value I O)) (s d : list I) (st : list (value I O)) (w : nat -> value I O) :
    (forall j x y K, nth_error s j = Some x -> nth_error d j = Some y ->
       ev j st K = if eqb x y then K (Val VUnit) st else K (Return (w j)) st) ->
    forall s' d' pre pre' K, s = (pre ++ s')%list -> d = (pre' ++ d')%list -> List.length pre = List.length pre' -> List.length s' = List.length d' ->
      each ev (List.length s') (List.length pre) st K =
      match Parsers.string_mismatch eqb (List.length pre) s' d' with Some j => K (Return (w j)) st | None => K (Val VUnit) st end.
  Proof.
    intros H s'. induction s' as [|x s' IH]; intros [|y d'] pre pre' K Hs Hd Hl Hl'; try discriminate; [reflexivity|].
    cbn [each List.length Parsers.string_mismatch]. unfold and_then.
    rewrite (H _ x y); [|subst s; rewrite nth_error_app2, Nat.sub_diag by lia; reflexivity|subst d; rewrite Hl, nth_error_app2, Nat.sub_diag by lia; reflexivity].
    destruct (eqb x y); cbn [negb]; [|reflexivity].
    assert (E : S (List.length pre) = List.length (pre ++ [x])) by (rewrite app_length; cbn; lia). rewrite E.
    apply (IH d' (pre ++ [x])%list (pre' ++ [y])%list); rewrite <- ?app_assoc; auto; rewrite ?app_length; cbn in *; lia.
  Qed.

  Lemma text_string_says O foreign starts acts t i :
    says O foreign starts acts "string" [w_input i; VSlice t] (w_pres VSlice w_error (Parsers.string verbose eqb t i)).
  Proof.
    destruct i as [l b]; apply settles_deeper; intro k; unfold Parsers.string; cbn [buf last].
    unfold call; erewrite step_apply by reflexivity.
    destruct l; destruct (List.length b <? List.length t) eqn:Hlt; destruct verbose; [set (verbose0 := true)|set (verbose0 := false)|set (verbose0 := true)|set (verbose0 := false)|set (verbose0 := true)|set (verbose0 := false)|set (verbose0 := true)|set (verbose0 := false)];
      (erewrite step_let; [|piece|reflexivity]; cbn [bind_pat]).
    1-2, 5-6: erewrite step_seq_return;
      [reflexivity|intro; evaluate_left; rewrite Hlt;
       replace (List.length t <? List.length b) with false by (symmetry; apply Nat.ltb_ge; apply Nat.ltb_lt in Hlt; lia); reflexivity].
    all: erewrite step_seq; [|intro; evaluate_left; rewrite Hlt; reflexivity];
      erewrite step_let; [|intro; evaluate_left; rewrite Hlt; reflexivity|reflexivity]; cbn [bind_pat].
    all: apply Nat.ltb_ge in Hlt; destruct (Parsers.string_mismatch eqb 0 t (firstn (List.length t) b)) as [j|] eqn:Hm;
      [erewrite step_seq_return;
       [|intro; erewrite step_for; [|piece|piece]; rewrite Nat.sub_0_r;
         rewrite (@each_string _ _ _ t (firstn (List.length t) b) []
                    (fun j => match @Parsers.err_string I unit verbose0 (mkInput true b) j t with
                              | Error b' e => w_result "Error" [VSlice b'; w_error e] | _ => VUnit end))
           with (s' := t) (d' := firstn (List.length t) b) (pre := []) (pre' := []);
         [cbn [List.length]; rewrite Hm; reflexivity
         |intros j0 x y K0 H1 H2; evaluate_left; rewrite H1, H2;
          replace (List.length b <? j0) with false
            by (symmetry; apply Nat.ltb_ge; assert (j0 < List.length t) by (apply nth_error_Some; rewrite H1; discriminate); lia);
          destruct (eqb x y); reflexivity
         |reflexivity|reflexivity|reflexivity|rewrite firstn_length; lia]]
      |erewrite step_seq;
       [|intro; erewrite step_for; [|piece|piece]; rewrite Nat.sub_0_r;
         rewrite (@each_string _ _ _ t (firstn (List.length t) b) []
                    (fun j => match @Parsers.err_string I unit verbose0 (mkInput true b) j t with
                              | Error b' e => w_result "Error" [VSlice b'; w_error e] | _ => VUnit end))
           with (s' := t) (d' := firstn (List.length t) b) (pre := []) (pre' := []);
         [cbn [List.length]; rewrite Hm; reflexivity
         |intros j0 x y K0 H1 H2; evaluate_left; rewrite H1, H2;
          replace (List.length b <? j0) with false
            by (symmetry; apply Nat.ltb_ge; assert (j0 < List.length t) by (apply nth_error_Some; rewrite H1; discriminate); lia);
          destruct (eqb x y); reflexivity
         |reflexivity|reflexivity|reflexivity|rewrite firstn_length; lia]]].
    all: evaluate; try (rewrite (proj2 (Nat.ltb_ge _ _) Hlt)); reflexivity.
  Qed.
End Parsers.
