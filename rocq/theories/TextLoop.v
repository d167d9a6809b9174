(** Evaluation in steps with enough fuel, and the loops of src/combinators/bounded.rs: [skip_many] (lines 154-191, 292-321, 403-419, 502-530, 621-652). *)
From Coq Require Import List Bool Arith String Lia.
From Verif Require Import Base.
From Verif Require Parsers.
From Verif Require Import Combinators Rust RustText TextModel TextProofs.
Import ListNotations.

Set Implicit Arguments.
Local Open Scope string_scope.
Local Open Scope nat_scope.

Section Ends.
  Context {I O R : Type}.
  Notation value := (value I O).
  Notation store := (list value).

  (** With enough fuel the computation ends in [o] and leaves the store [s']. *)
  Definition ends {A : Type} (g : nat -> @comp I O R A) (s : store) (o : out I O A) (s' : store) : Prop :=
    exists n, forall m, n <= m -> forall K, g m s K = K o s'.

  Lemma ends_deep {A : Type} (g : nat -> @comp I O R A) s o s' : (forall k K, g (deep k) s K = K o s') -> ends g s o s'.
  Proof. intros H. exists (deep 0). intros m Hm K. destruct (deep_le Hm) as [k ->]. apply H. Qed.

  Variable fns : list (string * string * fndef).
  Variable foreign : O -> string -> list value -> answered I O.
  Variable eqb : I -> I -> bool.
  Variable conv : value -> value.
  Variable starts : O.
  Variable acts : O -> caction value value O.
  Notation eval := (@eval I O R fns foreign eqb conv starts acts).
  Notation place := (@place I O R fns foreign eqb conv starts acts).
  Notation apply := (@apply I O R fns foreign eqb conv starts acts).
  Notation invoke := (@invoke I O R fns foreign eqb conv starts acts).
  Notation loop := (@loop I O R fns foreign eqb conv starts acts).
  Notation gather := (@gather I O R fns foreign eqb conv starts acts).

  (** [o] is not a value. *)
  Definition halts {A : Type} (o : out I O A) : Prop := match o with Val _ => False | _ => True end.

  Ltac with_fuel n := exists n; intros m Hm K; destruct m as [|m]; [lia|].

  Lemma ends_seq en e rest s v s1 o s2 :
    ends (fun m => eval m en e) s (Val v) s1 -> ends (fun m => eval m en rest) s1 o s2 ->
    ends (fun m => eval m en (ESeq e rest)) s o s2.
  Proof.
    intros [n1 H1] [n2 H2]. with_fuel (S (n1 + n2)). cbn [Rust.eval]. unfold and_then. rewrite H1 by lia. apply H2. lia.
  Qed.
  Lemma ends_seq_halt en e rest s o s1 :
    ends (fun m => eval m en e) s o s1 -> halts o -> ends (fun m => eval m en (ESeq e rest)) s o s1.
  Proof.
    intros [n1 H1] Ho. with_fuel (S n1). cbn [Rust.eval]. unfold and_then. rewrite H1 by lia. destruct o; (contradiction || reflexivity).
  Qed.
  Lemma ends_let en p e rest s v s1 en' s2 o s3 :
    ends (fun m => eval m en e) s (Val v) s1 -> bind_pat p v en s1 = Some (en', s2) ->
    ends (fun m => eval m en' rest) s2 o s3 ->
    ends (fun m => eval m en (ELet p e rest)) s o (st_cut s3 (st_len s1)).
  Proof.
    intros [n1 H1] Hb [n2 H2]. with_fuel (S (n1 + n2)). cbn [Rust.eval]. unfold and_then. rewrite H1 by lia. rewrite Hb.
    unfold within. rewrite H2 by lia. reflexivity.
  Qed.
  Lemma ends_let_halt en p e rest s o s1 :
    ends (fun m => eval m en e) s o s1 -> halts o -> ends (fun m => eval m en (ELet p e rest)) s o s1.
  Proof.
    intros [n1 H1] Ho. with_fuel (S n1). cbn [Rust.eval]. unfold and_then. rewrite H1 by lia. destruct o; (contradiction || reflexivity).
  Qed.

  Lemma ends_loop en e s o s1 : ends (fun m => loop m en e) s o s1 -> ends (fun m => eval m en (ELoop e)) s o s1.
  Proof. intros [n1 H1]. with_fuel (S n1). cbn [Rust.eval]. apply H1. lia. Qed.
  Lemma ends_loop_more en e s v s1 o s2 :
    ends (fun m => eval m en e) s (Val v) s1 -> ends (fun m => loop m en e) s1 o s2 -> ends (fun m => loop m en e) s o s2.
  Proof. intros [n1 H1] [n2 H2]. with_fuel (S (n1 + n2)). cbn [Rust.loop]. rewrite H1 by lia. apply H2. lia. Qed.
  Lemma ends_loop_break en e s s1 : ends (fun m => eval m en e) s Break s1 -> ends (fun m => loop m en e) s (Val VUnit) s1.
  Proof. intros [n1 H1]. with_fuel (S n1). cbn [Rust.loop]. rewrite H1 by lia. reflexivity. Qed.
  Lemma ends_loop_return en e s v s1 : ends (fun m => eval m en e) s (Return v) s1 -> ends (fun m => loop m en e) s (Return v) s1.
  Proof. intros [n1 H1]. with_fuel (S n1). cbn [Rust.loop]. rewrite H1 by lia. reflexivity. Qed.
  Lemma ends_loop_panic en e s s1 : ends (fun m => eval m en e) s Panicking s1 -> ends (fun m => loop m en e) s Panicking s1.
  Proof. intros [n1 H1]. with_fuel (S n1). cbn [Rust.loop]. rewrite H1 by lia. reflexivity. Qed.

  (** The arguments of a call. *)
  Definition eval_list (ev : expr -> @comp I O R value) : list expr -> @comp I O R (list value) :=
    fix evals (es : list expr) : comp (list value) :=
      match es with
      | [] => give []
      | e :: es => and_then (ev e) (fun v => and_then (evals es) (fun vs => give (v :: vs)))
      end.

  Lemma ends_call en f es s r s1 vs s2 o s3 :
    ends (fun m => place m en f) s (Val r) s1 -> ends (fun m => eval_list (eval m en) es) s1 (Val vs) s2 ->
    ends (fun m => apply m r vs) s2 o s3 -> ends (fun m => eval m en (ECall f es)) s o s3.
  Proof.
    intros [n1 H1] [n2 H2] [n3 H3]. with_fuel (S (n1 + n2 + n3)). cbn [Rust.eval].
    unfold and_then at 1. rewrite H1 by lia. fold (eval_list (eval m en)). unfold and_then. rewrite H2 by lia. apply H3. lia.
  Qed.
  Lemma ends_method en e f es s r s1 vs s2 o s3 :
    ends (fun m => place m en e) s (Val r) s1 -> ends (fun m => eval_list (eval m en) es) s1 (Val vs) s2 ->
    ends (fun m => invoke m r f vs) s2 o s3 -> ends (fun m => eval m en (EMethod e f es)) s o s3.
  Proof.
    intros [n1 H1] [n2 H2] [n3 H3]. with_fuel (S (n1 + n2 + n3)). cbn [Rust.eval].
    unfold and_then at 1. rewrite H1 by lia. fold (eval_list (eval m en)). unfold and_then. rewrite H2 by lia. apply H3. lia.
  Qed.

  (** How a function ends when its body ends in [o]. *)
  Definition caught (o : out I O value) : out I O value := match o with Return v => Val v | Break => Wrong | o => o end.

  Lemma ends_apply ty f by_ref ps e vs en' s s' o s'' :
    find_fn fns ty f = Some (mkFn by_ref ps e) -> bind_all ps vs [] s = Some (en', s') ->
    ends (fun m => eval m en' e) s' o s'' ->
    ends (fun m => apply m (inl (VFn ty f)) vs) s (caught o) (st_cut s'' (st_len s)).
  Proof.
    intros H Hb [n1 H1]. with_fuel (S n1). cbn [Rust.apply look]. unfold and_then, give. rewrite H. unfold within, catch. rewrite Hb, H1 by lia.
    destruct o; reflexivity.
  Qed.
  Lemma ends_invoke v f by_ref ps e vs en' s s' o s'' :
    (forall A (a : O -> A) (b : A), match v with VObj o => a o | _ => b end = b) ->
    find_fn fns (type_name v) f = Some (mkFn by_ref ps e) -> bind_all ps (v :: vs) [] s = Some (en', s') ->
    ends (fun m => eval m en' e) s' o s'' ->
    ends (fun m => invoke m (inl v) f vs) s (caught o) (st_cut s'' (st_len s)).
  Proof.
    intros Hv H Hb [n1 H1]. with_fuel (S n1). cbn [Rust.invoke look]. unfold and_then, give.
    rewrite (Hv _ _ _), H. unfold within, catch. destruct by_ref; rewrite Hb, H1 by lia; destruct o; reflexivity.
  Qed.

  Lemma ends_from_iter l p f s ty o s1 :
    find_fn fns ty "from_iter" = None ->
    ends (fun m => gather m (inr (l, p)) f starts) s o s1 ->
    ends (fun m => apply m (inl (VFn ty "from_iter")) [VCon "Inspect" "" [VRef l p; f]]) s o s1.
  Proof.
    intros Hf [n1 H1]. with_fuel (S n1). cbn [Rust.apply look]. unfold and_then, give. rewrite Hf. apply H1. lia.
  Qed.

  (** With enough fuel the body of a function makes the function end in [r]. *)
  Definition returns (g : nat -> @comp I O R value) (s : store) (r : out I O value) : Prop := exists o s', caught o = r /\ ends g s o s'.

  Lemma returns_ends g s o s' : ends g s o s' -> returns g s (caught o).
  Proof. intros H. exists o, s'. auto. Qed.
  Lemma returns_seq en e rest s v s1 r :
    ends (fun m => eval m en e) s (Val v) s1 -> returns (fun m => eval m en rest) s1 r ->
    returns (fun m => eval m en (ESeq e rest)) s r.
  Proof. intros H1 (o & s' & Hr & H2). exists o, s'. split; [exact Hr|]. eapply ends_seq; eassumption. Qed.
  Lemma returns_let en p e rest s v s1 en' s2 r :
    ends (fun m => eval m en e) s (Val v) s1 -> bind_pat p v en s1 = Some (en', s2) ->
    returns (fun m => eval m en' rest) s2 r -> returns (fun m => eval m en (ELet p e rest)) s r.
  Proof. intros H1 Hb (o & s' & Hr & H2). exists o. eexists. split; [exact Hr|]. eapply ends_let; eassumption. Qed.
  Lemma returns_call en f es s r s1 vs s2 o :
    ends (fun m => place m en f) s (Val r) s1 -> ends (fun m => eval_list (eval m en) es) s1 (Val vs) s2 ->
    returns (fun m => apply m r vs) s2 o -> returns (fun m => eval m en (ECall f es)) s o.
  Proof. intros H1 H2 (o' & s' & Hr & H3). exists o', s'. split; [exact Hr|]. eapply ends_call; eassumption. Qed.
  Lemma returns_method en e f es s r s1 vs s2 o :
    ends (fun m => place m en e) s (Val r) s1 -> ends (fun m => eval_list (eval m en) es) s1 (Val vs) s2 ->
    returns (fun m => invoke m r f vs) s2 o -> returns (fun m => eval m en (EMethod e f es)) s o.
  Proof. intros H1 H2 (o' & s' & Hr & H3). exists o', s'. split; [exact Hr|]. eapply ends_method; eassumption. Qed.
  Lemma returns_apply ty f by_ref ps e vs en' s s' r :
    find_fn fns ty f = Some (mkFn by_ref ps e) -> bind_all ps vs [] s = Some (en', s') ->
    returns (fun m => eval m en' e) s' r -> returns (fun m => apply m (inl (VFn ty f)) vs) s r.
  Proof.
    intros H Hb (o & s'' & Hr & H1). exists (caught o). eexists. split; [destruct o; exact Hr|]. eapply ends_apply; eassumption.
  Qed.
  Lemma returns_invoke v f by_ref ps e vs en' s s' r :
    (forall A (a : O -> A) (b : A), match v with VObj o => a o | _ => b end = b) ->
    find_fn fns (type_name v) f = Some (mkFn by_ref ps e) -> bind_all ps (v :: vs) [] s = Some (en', s') ->
    returns (fun m => eval m en' e) s' r -> returns (fun m => invoke m (inl v) f vs) s r.
  Proof.
    intros Hv H Hb (o & s'' & Hr & H1). exists (caught o). eexists. split; [destruct o; exact Hr|]. eapply ends_invoke; eassumption.
  Qed.
End Ends.

Lemma settles_apply (I O : Type) fns foreign eqb conv starts acts ty f vs (r : out I O (value I O)) by_ref ps e en' s' :
  find_fn fns ty f = Some (mkFn by_ref ps e) -> bind_all ps vs [] [] = Some (en', s') ->
  returns (fun m => @eval I O (out I O (value I O)) fns foreign eqb conv starts acts m en' e) s' r ->
  settles (fun n => call fns foreign eqb conv starts acts n ty f vs) r.
Proof.
  intros H Hb (o & s'' & Hr & H1). rewrite <- Hr.
  destruct (@ends_apply I O _ fns foreign eqb conv starts acts ty f by_ref ps e vs en' [] s' o s'' H Hb H1) as [n Hn].
  exists n. intros m Hm. unfold call. rewrite Hn by lia. reflexivity.
Qed.
