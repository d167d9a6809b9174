(** Rules for running Rust text (Rust.v) backwards from what is to hold at the end. *)
From Coq Require Import List Bool Arith String Lia.
From Verif Require Import Base Combinators Buffer Rust TextModel TextProofs TextLoop.
Import ListNotations.

Set Implicit Arguments.
Local Open Scope string_scope.
Local Open Scope nat_scope.

Section Wp.
  Context {I O R : Type}.
  Notation value := (value I O).
  Notation store := (list value).

  (** With enough fuel [g] ends, and then [Q] holds. *)
  Definition wp {A : Type} (g : nat -> @comp I O R A) (s : store) (Q : out I O A -> store -> Prop) : Prop :=
    exists o s', ends g s o s' /\ Q o s'.

  (** [f] for values, [Q] for every other end. *)
  Definition pass {A B : Type} (Q : out I O B -> store -> Prop) (f : A -> store -> Prop) (o : out I O A) (s : store) : Prop :=
    match o with
    | Val a => f a s
    | Return v => Q (Return v) s
    | Break => Q Break s
    | Panicking => Q Panicking s
    | Wrong => Q Wrong s
    | Tired => Q Tired s
    end.

  Lemma wp_ends {A : Type} (g : nat -> @comp I O R A) s o s' (Q : out I O A -> store -> Prop) : ends g s o s' -> Q o s' -> wp g s Q.
  Proof. intros H HQ. exists o, s'. auto. Qed.
  Lemma wp_deep {A : Type} (g : nat -> @comp I O R A) s o s' (Q : out I O A -> store -> Prop) :
    (forall k K, g (deep k) s K = K o s') -> Q o s' -> wp g s Q.
  Proof. intros H. apply wp_ends. apply ends_deep. exact H. Qed.
  Lemma wp_conseq {A : Type} (g : nat -> @comp I O R A) s (Q Q' : out I O A -> store -> Prop) :
    wp g s Q -> (forall o s', Q o s' -> Q' o s') -> wp g s Q'.
  Proof. intros (o & s' & H & HQ) HI. exists o, s'. auto. Qed.
  Lemma wp_up {A : Type} (g h : nat -> @comp I O R A) s (Q : out I O A -> store -> Prop) :
    (forall m K, g (S m) s K = h m s K) -> wp h s Q -> wp g s Q.
  Proof.
    intros Hg (o & s' & [n H] & HQ). exists o, s'. split; [|exact HQ]. exists (S n). intros m Hm K. destruct m as [|m]; [lia|].
    rewrite Hg. apply H. lia.
  Qed.
  Lemma wp_bind {A B : Type} (g : nat -> @comp I O R A) (f : nat -> A -> @comp I O R B) s (Q : out I O B -> store -> Prop) :
    wp g s (pass Q (fun a s1 => wp (fun m => f m a) s1 Q)) -> wp (fun m => and_then (g m) (f m)) s Q.
  Proof.
    intros (o & s1 & [n H] & HQ). destruct o as [a|v| | | |].
    - destruct HQ as (o & s2 & [n2 H2] & HQ). exists o, s2. split; [|exact HQ]. exists (n + n2). intros m Hm K.
      unfold and_then. rewrite H by lia. apply H2. lia.
    - exists (Return v), s1. split; [|exact HQ]. exists n. intros m Hm K. unfold and_then. rewrite H by lia. reflexivity.
    - exists Break, s1. split; [|exact HQ]. exists n. intros m Hm K. unfold and_then. rewrite H by lia. reflexivity.
    - exists Panicking, s1. split; [|exact HQ]. exists n. intros m Hm K. unfold and_then. rewrite H by lia. reflexivity.
    - exists Wrong, s1. split; [|exact HQ]. exists n. intros m Hm K. unfold and_then. rewrite H by lia. reflexivity.
    - exists Tired, s1. split; [|exact HQ]. exists n. intros m Hm K. unfold and_then. rewrite H by lia. reflexivity.
  Qed.
  Lemma wp_now {A : Type} (g : nat -> @comp I O R A) s o s' (Q : out I O A -> store -> Prop) :
    (forall m K, g m s K = K o s') -> Q o s' -> wp g s Q.
  Proof. intros H. apply wp_ends. exists 0. auto. Qed.
  Lemma wp_branch {A : Type} (c : bool) (a b : nat -> @comp I O R A) s (Q : out I O A -> store -> Prop) :
    (if c then wp a s Q else wp b s Q) -> wp (fun m => branch c (a m) (b m)) s Q.
  Proof. intros H. destruct c; exact H. Qed.
  Lemma wp_within (g : nat -> @comp I O R value) s0 s (Q : out I O value -> store -> Prop) :
    wp g s (fun o s' => Q o (st_cut s' (st_len s0))) ->
    exists o s3, (exists n, forall m, n <= m -> forall K, within (g m) s0 s K = K o s3) /\ Q o s3.
  Proof.
    intros (o & s' & [n H] & HQ). exists o, (st_cut s' (st_len s0)). split; [|exact HQ]. exists n. intros m Hm K. unfold within. rewrite H by lia. reflexivity.
  Qed.
  Lemma wp_body (g : nat -> @comp I O R value) s0 s (Q : out I O value -> store -> Prop) :
    wp g s (fun o s' => Q (caught o) (st_cut s' (st_len s0))) ->
    exists o s3, (exists n, forall m, n <= m -> forall K, within (catch (g m)) s0 s K = K o s3) /\ Q o s3.
  Proof.
    intros (o & s' & [n H] & HQ). exists (caught o), (st_cut s' (st_len s0)). split; [|exact HQ]. exists n. intros m Hm K.
    unfold within, catch. rewrite H by lia. destruct o; reflexivity.
  Qed.

  Variable fns : list (string * string * fndef).
  Variable foreign : O -> string -> list value -> answered I O.
  Variable eqb : I -> I -> bool.
  Variable conv : value -> value.
  Variable starts : O.
  Variable acts : O -> caction value value O.
  Notation eval := (@eval I O R fns foreign eqb conv starts acts).
  Notation place := (@place I O R fns foreign eqb conv starts acts).
  Notation apply := (@apply I O R fns foreign eqb conv starts acts).
  Notation invoke := (@invoke I O R fns foreign eqb conv starts acts).
  Notation loop := (@loop I O R fns foreign eqb conv starts acts).
  Implicit Types Q : out I O value -> store -> Prop.

  Lemma wp_seq en e rest s Q :
    wp (fun m => eval m en e) s (pass Q (fun _ s1 => wp (fun m => eval m en rest) s1 Q)) -> wp (fun m => eval m en (ESeq e rest)) s Q.
  Proof. intros H. eapply wp_up; [|apply (@wp_bind _ _ _ (fun m _ => eval m en rest) _ _ H)]. reflexivity. Qed.
  Lemma wp_let en p e rest s Q :
    wp (fun m => eval m en e) s
       (pass Q (fun v s1 => exists en' s2, bind_pat p v en s1 = Some (en', s2) /\
                                          wp (fun m => eval m en' rest) s2 (fun o s3 => Q o (st_cut s3 (st_len s1))))) ->
    wp (fun m => eval m en (ELet p e rest)) s Q.
  Proof.
    intros H. eapply wp_up with (h := fun m => and_then (eval m en e) (fun v s k =>
      match bind_pat p v en s with Some (en', s') => within (eval m en' rest) s s' k | None => k Wrong s end)); [reflexivity|].
    apply wp_bind. eapply wp_conseq; [exact H|]. intros o s1. destruct o as [v| | | | |]; cbn [pass]; try exact (fun H => H).
    intros (en' & s2 & Hb & H2). destruct (@wp_within _ s1 s2 Q H2) as (o & s3 & [n Hn] & HQ). exists o, s3. split; [|exact HQ].
    exists n. intros m Hm K. rewrite Hb. apply Hn. exact Hm.
  Qed.
  Lemma wp_if en c a b s Q :
    wp (fun m => eval m en c) s (pass Q (fun v s1 => match v with
                                                     | VBool x => if x then wp (fun m => eval m en a) s1 Q else wp (fun m => eval m en b) s1 Q
                                                     | _ => False
                                                     end)) ->
    wp (fun m => eval m en (EIf c a b)) s Q.
  Proof.
    intros H. eapply wp_up with (h := fun m => and_then (eval m en c) (fun v => match v with VBool c => branch c (eval m en a) (eval m en b) | _ => stop Wrong end)).
    - reflexivity.
    - apply wp_bind. eapply wp_conseq; [exact H|]. intros o s1. destruct o as [v| | | | |]; cbn [pass]; try exact (fun H => H).
      destruct v as [|x| | | | | | | | | | | | | |]; try contradiction. intros H2. apply wp_branch. exact H2.
  Qed.
  Lemma wp_and en a b s Q :
    wp (fun m => eval m en a) s (pass Q (fun v s1 => match v with
                                                     | VBool x => if x then wp (fun m => eval m en b) s1 Q else Q (Val (VBool false)) s1
                                                     | _ => False
                                                     end)) ->
    wp (fun m => eval m en (EAnd a b)) s Q.
  Proof.
    intros H. eapply wp_up with (h := fun m => and_then (eval m en a) (fun v => match v with VBool c => branch c (eval m en b) (give (VBool false)) | _ => stop Wrong end)).
    - reflexivity.
    - apply wp_bind. eapply wp_conseq; [exact H|]. intros o s1. destruct o as [v| | | | |]; cbn [pass]; try exact (fun H => H).
      destruct v as [|x| | | | | | | | | | | | | |]; try contradiction. intros H2. apply wp_branch. destruct x; [exact H2|].
      eapply wp_now; [reflexivity|exact H2].
  Qed.
  Lemma wp_bin en o a b s Q :
    wp (fun m => eval m en a) s
       (pass Q (fun v s1 => match v with
                            | VNat x =>
                                wp (fun m => eval m en b) s1
                                   (pass Q (fun w s2 => match w with
                                                        | VNat y => wp (fun _ => binary eqb o (VNat x) (VNat y)) s2 Q
                                                        | _ => False
                                                        end))
                            | _ => False
                            end)) ->
    wp (fun m => eval m en (EBin o a b)) s Q.
  Proof.
    intros H. eapply wp_up with (h := fun m => and_then (eval m en a) (fun v => and_then (plain v) (fun v => and_then (eval m en b) (fun w =>
      and_then (plain w) (fun w => binary eqb o v w))))).
    - reflexivity.
    - apply wp_bind. eapply wp_conseq; [exact H|]. intros x s1. destruct x as [v| | | | |]; cbn [pass]; try exact (fun H => H).
      destruct v as [| |x| | | | | | | | | | | | |]; try contradiction. intros H2. apply wp_bind. eapply wp_now; [reflexivity|]. cbn [pass].
      apply wp_bind. eapply wp_conseq; [exact H2|]. intros y s2. destruct y as [v| | | | |]; cbn [pass]; try exact (fun H => H).
      destruct v as [| |y| | | | | | | | | | | | |]; try contradiction. intros H3. apply wp_bind. eapply wp_now; [reflexivity|]. exact H3.
  Qed.
  Lemma wp_sub x y s Q :
    (if y <=? x then Q (Val (VNat (x - y))) s else Q Panicking s) -> wp (fun _ => binary eqb OSub (VNat x) (VNat y)) s Q.
  Proof.
    intros H. cbn [binary]. apply wp_branch. rewrite Nat.ltb_antisym. destruct (y <=? x); (eapply wp_now; [reflexivity|exact H]).
  Qed.
  Lemma wp_set en e v s Q :
    wp (fun m => eval m en v) s
       (pass Q (fun w s1 => wp (fun m => place m en e) s1
                               (pass Q (fun r s2 => wp (fun _ => put r w) s2 (pass Q (fun _ s3 => Q (Val VUnit) s3)))))) ->
    wp (fun m => eval m en (ESet e v)) s Q.
  Proof.
    intros H. eapply wp_up with (h := fun m => and_then (eval m en v) (fun w => and_then (place m en e) (fun r => and_then (put r w) (fun _ => give VUnit)))).
    - reflexivity.
    - apply wp_bind. eapply wp_conseq; [exact H|]. intros x s1. destruct x as [w| | | | |]; cbn [pass]; try exact (fun H => H).
      intros H2. apply wp_bind. eapply wp_conseq; [exact H2|]. intros y s2. destruct y as [r| | | | |]; cbn [pass]; try exact (fun H => H).
      intros H3. apply wp_bind. eapply wp_conseq; [exact H3|]. intros z s3. destruct z as [u| | | | |]; cbn [pass]; try exact (fun H => H).
      intros H4. eapply wp_now; [reflexivity|exact H4].
  Qed.
  Lemma wp_return en e s Q :
    wp (fun m => eval m en e) s (pass Q (fun v s1 => Q (Return v) s1)) -> wp (fun m => eval m en (EReturn e)) s Q.
  Proof.
    intros H. eapply wp_up with (h := fun m => and_then (eval m en e) (fun v => stop (Return v))); [reflexivity|].
    apply wp_bind. eapply wp_conseq; [exact H|]. intros x s1. destruct x; cbn [pass]; try exact (fun H => H).
    intros H2. eapply wp_now; [reflexivity|exact H2].
  Qed.
  Lemma wp_addr en e s Q : wp (fun m => eval m en e) s Q -> wp (fun m => eval m en (EAddr false e)) s Q.
  Proof. intros H. eapply wp_up; [|exact H]. reflexivity. Qed.
  Lemma wp_nil en s Q : Q (Val VUnit) s -> wp (fun m => eval m en EUnit) s Q.
  Proof. intros H. eapply wp_up with (h := fun m => give VUnit); [reflexivity|]. eapply wp_now; [reflexivity|exact H]. Qed.

  Definition Qs := out I O (list value) -> store -> Prop.
  Lemma wp_args_nil ev s (Q : Qs) : Q (Val []) s -> wp (fun m => @eval_list I O R (ev m) []) s Q.
  Proof. intros H. eapply wp_now; [reflexivity|exact H]. Qed.
  Lemma wp_args_cons (ev : nat -> expr -> @comp I O R value) e es s (Q : Qs) :
    wp (fun m => ev m e) s (pass Q (fun v s1 => wp (fun m => eval_list (ev m) es) s1 (pass Q (fun vs s2 => Q (Val (v :: vs)) s2)))) ->
    wp (fun m => eval_list (ev m) (e :: es)) s Q.
  Proof.
    intros H. cbn [eval_list]. apply wp_bind. eapply wp_conseq; [exact H|]. intros x s1. destruct x as [v| | | | |]; cbn [pass]; try exact (fun H => H).
    intros H2. apply wp_bind. eapply wp_conseq; [exact H2|]. intros y s2. destruct y as [vs| | | | |]; cbn [pass]; try exact (fun H => H).
    intros H3. eapply wp_now; [reflexivity|exact H3].
  Qed.
  Lemma wp_con en ty c es s Q :
    wp (fun m => eval_list (eval m en) es) s (pass Q (fun vs s1 => Q (Val (VCon ty c vs)) s1)) -> wp (fun m => eval m en (ECon ty c es)) s Q.
  Proof.
    intros H. eapply wp_up with (h := fun m => and_then (eval_list (eval m en) es) (fun vs => give (VCon ty c vs))); [reflexivity|].
    apply wp_bind. eapply wp_conseq; [exact H|]. intros x s1. destruct x; cbn [pass]; try exact (fun H => H).
    intros H2. eapply wp_now; [reflexivity|exact H2].
  Qed.
  Lemma wp_method en e f es s Q :
    wp (fun m => place m en e) s
       (pass Q (fun r s1 => wp (fun m => eval_list (eval m en) es) s1 (pass Q (fun vs s2 => wp (fun m => invoke m r f vs) s2 Q)))) ->
    wp (fun m => eval m en (EMethod e f es)) s Q.
  Proof.
    intros H. eapply wp_up with (h := fun m => and_then (place m en e) (fun r => and_then (eval_list (eval m en) es) (fun vs => invoke m r f vs))); [reflexivity|].
    apply wp_bind. eapply wp_conseq; [exact H|]. intros x s1. destruct x as [r| | | | |]; cbn [pass]; try exact (fun H => H).
    intros H2. apply wp_bind. exact H2.
  Qed.
  Lemma wp_call en e es s Q :
    wp (fun m => place m en e) s
       (pass Q (fun r s1 => wp (fun m => eval_list (eval m en) es) s1 (pass Q (fun vs s2 => wp (fun m => apply m r vs) s2 Q)))) ->
    wp (fun m => eval m en (ECall e es)) s Q.
  Proof.
    intros H. eapply wp_up with (h := fun m => and_then (place m en e) (fun r => and_then (eval_list (eval m en) es) (fun vs => apply m r vs))); [reflexivity|].
    apply wp_bind. eapply wp_conseq; [exact H|]. intros x s1. destruct x as [r| | | | |]; cbn [pass]; try exact (fun H => H).
    intros H2. apply wp_bind. exact H2.
  Qed.
  (** The place of a value that is no variable or field. *)
  Lemma wp_place_method en e f es s (Q : out I O spot -> store -> Prop) :
    wp (fun m => eval m en (EMethod e f es)) s (pass Q (fun v s1 => match v with VRef l p => Q (Val (inr (l, p))) s1 | v => Q (Val (inl v)) s1 end)) ->
    wp (fun m => place m en (EMethod e f es)) s Q.
  Proof.
    intros H. eapply wp_up with (h := fun m => and_then (eval m en (EMethod e f es)) (fun v => spot_of (inl v))); [reflexivity|].
    apply wp_bind. eapply wp_conseq; [exact H|]. intros x s1. destruct x as [v| | | | |]; cbn [pass]; try exact (fun H => H).
    destruct v; intros H2; (eapply wp_now; [reflexivity|exact H2]).
  Qed.
  Lemma wp_place_call en e es s (Q : out I O spot -> store -> Prop) :
    wp (fun m => eval m en (ECall e es)) s (pass Q (fun v s1 => match v with VRef l p => Q (Val (inr (l, p))) s1 | v => Q (Val (inl v)) s1 end)) ->
    wp (fun m => place m en (ECall e es)) s Q.
  Proof.
    intros H. eapply wp_up with (h := fun m => and_then (eval m en (ECall e es)) (fun v => spot_of (inl v))); [reflexivity|].
    apply wp_bind. eapply wp_conseq; [exact H|]. intros x s1. destruct x as [v| | | | |]; cbn [pass]; try exact (fun H => H).
    destruct v; intros H2; (eapply wp_now; [reflexivity|exact H2]).
  Qed.
  Lemma wp_match en e arms s Q :
    wp (fun m => eval m en e) s (pass Q (fun v s1 => (forall K, @plain I O R v s1 K = K (Val v) s1) /\ wp (fun m => arms_of (eval m) en v arms) s1 Q)) ->
    wp (fun m => eval m en (EMatch e arms)) s Q.
  Proof.
    intros H. eapply wp_up with (h := fun m => and_then (eval m en e) (fun v => and_then (plain v) (fun v => arms_of (eval m) en v arms))); [reflexivity|].
    apply wp_bind. eapply wp_conseq; [exact H|]. intros x s1. destruct x as [v| | | | |]; cbn [pass]; try exact (fun H => H).
    intros [Hv H2]. apply wp_bind. eapply wp_now; [intros _ K; apply Hv|exact H2].
  Qed.
  Lemma wp_arm en v p e arms s Q en' s' :
    bind_pat p v en s = Some (en', s') -> wp (fun m => eval m en' e) s' (fun o s'' => Q o (st_cut s'' (st_len s))) ->
    wp (fun m => arms_of (eval m) en v ((p, None, e) :: arms)) s Q.
  Proof.
    intros Hb H. destruct (@wp_within _ s s' Q H) as (o & s3 & [n Hn] & HQ). exists o, s3. split; [|exact HQ].
    exists n. intros m Hm K. cbn [arms_of]. rewrite Hb. apply Hn. exact Hm.
  Qed.
  Lemma wp_no_arm en v p g e arms s Q :
    bind_pat p v en s = None -> wp (fun m => arms_of (eval m) en v arms) s Q -> wp (fun m => arms_of (eval m) en v ((p, g, e) :: arms)) s Q.
  Proof.
    intros Hb (o & s3 & [n Hn] & HQ). exists o, s3. split; [|exact HQ]. exists n. intros m Hm K. cbn [arms_of]. rewrite Hb. apply Hn. exact Hm.
  Qed.

  (** Calls of functions of the text. *)
  Lemma wp_apply ty f by_ref ps e vs en' s s' Q :
    find_fn fns ty f = Some (mkFn by_ref ps e) -> bind_all ps vs [] s = Some (en', s') ->
    wp (fun m => eval m en' e) s' (fun o s'' => Q (caught o) (st_cut s'' (st_len s))) ->
    wp (fun m => apply m (inl (VFn ty f)) vs) s Q.
  Proof.
    intros H Hb (o & s'' & Ho & HQ). exists (caught o), (st_cut s'' (st_len s)). split; [|exact HQ]. eapply ends_apply; eassumption.
  Qed.
  Lemma wp_apply_closure en ps e vs en' s s' Q :
    bind_all ps vs en s = Some (en', s') ->
    wp (fun m => eval m en' e) s' (fun o s'' => Q (caught o) (st_cut s'' (st_len s))) ->
    wp (fun m => apply m (inl (VClos en ps e)) vs) s Q.
  Proof.
    intros Hb H. destruct (@wp_body _ s s' Q H) as (o & s3 & [n Hn] & HQ). exists o, s3. split; [|exact HQ].
    exists (S n). intros m Hm K. destruct m as [|m]; [lia|]. cbn [Rust.apply look]. unfold and_then, give. rewrite Hb. apply Hn. lia.
  Qed.
  Lemma wp_invoke v f by_ref ps e vs en' l p s s' Q :
    read_place s l p = Some v ->
    (forall A (a : O -> A) (b : A), match v with VObj o => a o | _ => b end = b) ->
    find_fn fns (type_name v) f = Some (mkFn by_ref ps e) ->
    bind_all ps ((if by_ref then VRef l p else v) :: vs) [] s = Some (en', s') ->
    wp (fun m => eval m en' e) s' (fun o s'' => Q (caught o) (st_cut s'' (st_len s))) ->
    wp (fun m => invoke m (inr (l, p)) f vs) s Q.
  Proof.
    intros Hr Hv Hf Hb H. destruct (@wp_body _ s s' Q H) as (o & s3 & [n Hn] & HQ). exists o, s3. split; [|exact HQ].
    exists (S n). intros m Hm K. destruct m as [|m]; [lia|]. cbn [Rust.invoke look]. unfold and_then, given. rewrite Hr.
    rewrite (Hv _ _ _), Hf. destruct by_ref; rewrite Hb; apply Hn; lia.
  Qed.
  Lemma wp_invoke_apply v f ps e vs l p s Q :
    read_place s l p = Some v ->
    (forall A (a : O -> A) (b : A), match v with VObj o => a o | _ => b end = b) ->
    find_fn fns (type_name v) f = Some (mkFn true ps e) ->
    wp (fun m => apply m (inl (VFn (type_name v) f)) (VRef l p :: vs)) s Q -> wp (fun m => invoke m (inr (l, p)) f vs) s Q.
  Proof.
    intros Hr Hv Hf (o & s' & [n H] & HQ). exists o, s'. split; [|exact HQ]. exists n. intros m Hm K. rewrite <- (H m Hm).
    destruct m as [|m]; [reflexivity|]. cbn [Rust.invoke Rust.apply look]. unfold and_then, given, give. rewrite Hr. rewrite (Hv _ _ _), Hf. reflexivity.
  Qed.
  Lemma wp_map_ok w f s Q :
    find_fn fns "Result" "map" = None -> (forall l p, f <> VRef l p) ->
    wp (fun m => apply m (inl f) [w]) s (pass Q (fun y s1 => Q (Val (VCon "Result" "Ok" [y])) s1)) ->
    wp (fun m => invoke m (inl (VCon "Result" "Ok" [w])) "map" [f]) s Q.
  Proof.
    intros Hf Hr (o & s1 & [n Hn] & HQ).
    assert (H : forall o' : out I O value, (forall K, match o with
                               | Val y => K (Val (VCon "Result" "Ok" [y])) s1
                               | Return v => K (Return v) s1 | Break => K Break s1 | Panicking => K Panicking s1 | Wrong => K Wrong s1 | Tired => K Tired s1
                               end = K o' s1 :> R) -> Q o' s1 -> wp (fun m => invoke m (inl (VCon "Result" "Ok" [w])) "map" [f]) s Q).
    { intros o' Ho HQ'. exists o', s1. split; [|exact HQ']. exists (S n). intros m Hm K. destruct m as [|m]; [lia|].
      cbn [Rust.invoke look]. unfold give at 1. unfold and_then at 1. cbn [type_name]. rewrite Hf.
      assert (Hs : forall K', and_then (spot_of (inl f)) (fun q => apply m q [w]) s K' = K' o s1).
      { intros K'. unfold spot_of, look, and_then, give. destruct f as [| | | | | | | |l p| | | | | | |]; [..|destruct (Hr l p eq_refl)| | | | | | |]; apply Hn; lia. }
      rewrite <- Ho. unfold std_method. cbn -[and_then spot_of Rust.apply]. unfold and_then at 1. rewrite Hs. destruct o; reflexivity. }
    destruct o as [y| | | | |]; (eapply H; [reflexivity|exact HQ]).
  Qed.

  (** Loops. *)
  Lemma wp_eloop en e s Q : wp (fun m => loop m en e) s Q -> wp (fun m => eval m en (ELoop e)) s Q.
  Proof. intros H. eapply wp_up; [|exact H]. reflexivity. Qed.
  Lemma wp_loop en e s Q :
    wp (fun m => eval m en e) s
       (fun o s1 => match o with
                    | Val _ => wp (fun m => loop m en e) s1 Q
                    | Break => Q (Val VUnit) s1
                    | o => Q o s1
                    end) ->
    wp (fun m => loop m en e) s Q.
  Proof.
    intros (o & s1 & H & HQ). destruct o as [v|v| | | |].
    - destruct HQ as (o & s2 & H2 & HQ). exists o, s2. split; [|exact HQ]. eapply ends_loop_more; eassumption.
    - exists (Return v), s1. split; [|exact HQ]. apply ends_loop_return. exact H.
    - exists (Val VUnit), s1. split; [|exact HQ]. apply ends_loop_break. exact H.
    - exists Panicking, s1. split; [|exact HQ]. apply ends_loop_panic. exact H.
    - destruct H as [n H]. exists Wrong, s1. split; [|exact HQ]. exists (S n). intros m Hm K. destruct m as [|m]; [lia|].
      cbn [Rust.loop]. rewrite H by lia. reflexivity.
    - destruct H as [n H]. exists Tired, s1. split; [|exact HQ]. exists (S n). intros m Hm K. destruct m as [|m]; [lia|].
      cbn [Rust.loop]. rewrite H by lia. reflexivity.
  Qed.

  (** The end of the text fits the end of the model. *)
  Definition fits {A : Type} (r : run A) (wv : A -> value) (ws : A -> store) (o : out I O value) (s : store) : Prop :=
    match r with
    | Done a => o = Val (wv a) /\ s = ws a
    | Panicked => o = Panicking
    | Undefined => o = Wrong
    | Stuck => True
    end.

  Lemma wp_fits {A : Type} (g : nat -> @comp I O R value) s (r : run A) wv ws Q :
    wp g s (fits r wv ws) -> r <> Stuck -> (forall a, r = Done a -> Q (Val (wv a)) (ws a)) ->
    (r = Panicked -> forall s', Q Panicking s') -> (r = Undefined -> forall s', Q Wrong s') -> wp g s Q.
  Proof.
    intros H HS HD HP HU. eapply wp_conseq; [exact H|]. intros o s'. destruct r as [a| | |]; cbn [fits].
    - intros [-> ->]. apply HD. reflexivity.
    - intros ->. apply HP. reflexivity.
    - intros ->. apply HU. reflexivity.
    - contradiction.
  Qed.
End Wp.
