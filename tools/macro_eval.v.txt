
(** * Rust expressions and types of the tests *)

(** [Other 0] is [+], 1 [-], 2 [.], 3 [::], 4 [&], 5 [as], 6 [_]. *)
Definition is_semi (t : tok) : bool := match t with Semi => true | _ => false end.
Definition is_type (ts : list tok) : bool :=
  negb (existsb is_semi ts) &&
  match ts with
  | [Other 6] | [Group []] | [Other 4; Ident _] | [Ident _] => true
  | _ => false
  end.
Definition is_comma (t : tok) : bool := match t with Comma => true | _ => false end.
Definition is_colon (t : tok) : bool := match t with Colon => true | _ => false end.
Fixpoint split_at (f : tok -> bool) (ts : list tok) : option (list tok * list tok) :=
  match ts with
  | [] => None
  | t :: ts => if f t then Some ([], ts) else match split_at f ts with Some (a, b) => Some (t :: a, b) | None => None end
  end.
Fixpoint splits (fuel : nat) (ts : list tok) : list (list tok) :=
  match fuel, split_at is_comma ts with
  | S fuel, Some (a, b) => a :: (match b with [] => [] | _ => splits fuel b end)
  | _, _ => [ts]
  end.

(** The value of an expression: sums and differences of literals, variables, tuples, with casts. *)
Fixpoint evaluate (fuel : nat) (rho : tenv) (ts : list tok) : option val :=
  match fuel with
  | 0 => None
  | S fuel =>
      let prim t :=
        match t with
        | Ident n => Some (var rho n)
        | Other n => if n <? 100 then None else nth_error literals (n - 100)
        | Group [] => Some (VTup [])
        | Group l =>
            match splits (List.length l) l with
            | [e] => evaluate fuel rho e
            | es => fold_right (fun e r => match evaluate fuel rho e, r with Some v, Some (VTup vs) => Some (VTup (v :: vs)) | _, _ => None end) (Some (VTup [])) es
            end
        | _ => None
        end in
      let fix more acc ts :=
        match ts with
        | [] => Some acc
        | Other 5 :: Ident _ :: ts => more acc ts
        | Other 0 :: t :: Other 5 :: Ident _ :: ts => match prim t with Some v => more (v_add acc v) ts | None => None end
        | Other 1 :: t :: Other 5 :: Ident _ :: ts => match prim t with Some v => more (v_sub acc v) ts | None => None end
        | Other 0 :: t :: ts => match prim t with Some v => more (v_add acc v) ts | None => None end
        | Other 1 :: t :: ts => match prim t with Some v => more (v_sub acc v) ts | None => None end
        | _ => None
        end in
      match ts with
      | t :: ts => match prim t with Some v => more v ts | None => None end
      | [] => None
      end
  end.
(** Parsers inline: a block, or [s.ret::<t, u>(e)]. *)
Definition inline (rho : tenv) (ts : list tok) : option (parser Z val val) :=
  match ts with
  | [Other n] => if (10 <=? n) && (n <? 100) then match nth_error blocks (n - 10) with Some p => Some (p rho) | None => None end else None
  | [Ident _; Other 2; Ident 0; Other 3; Lt; t; Comma; u; Gt; Group e] =>
      if is_type [t] && is_type [u] then match evaluate 9 rho e with Some v => Some (ret v) | None => None end else None
  | _ => None
  end.
Definition expression (ts : list tok) : bool :=
  negb (existsb is_semi ts) &&
  match ts with
  | [] | At :: _ => false
  | _ => match evaluate 9 [] ts, inline [] ts with None, None => false | _, _ => true end
  end.

Definition rust0 : rustc := {|
  is_expr := expression;
  typed := fun ts =>
    match split_at is_comma ts with
    | Some (t, r) =>
        match split_at is_colon r with
        | Some (u, e) => if is_type t && is_type u && expression e then Some (t, u, e) else None
        | None => None
        end
    | None => None
    end;
  args := fun ts => match ts with [] => Some [] | _ => let es := splits (List.length ts) ts in if forallb expression es then Some es else None end;
  let_pat := fun ts =>
    match ts with
    | Ident n :: Eq :: rest => Some ([Ident n], rest)
    | Group l :: Eq :: rest => Some ([Group l], rest)
    | _ => None
    end;
  let_typed := fun ts =>
    match ts with
    | Ident n :: Colon :: t :: Eq :: rest => if is_type [t] then Some (n, [t], rest) else None
    | _ => None
    end |}.

(** This rustc obeys the laws that the theorems of C40 require. *)
Lemma split_at_app : forall f ts a b, split_at f ts = Some (a, b) -> exists t, ts = a ++ t :: b /\ f t = true.
Proof.
  induction ts as [|t ts IH]; intros a b H; cbn in H; [discriminate|]. destruct (f t) eqn:F.
  - inversion H; subst. exists t. auto.
  - destruct (split_at f ts) as [[a' b']|]; [|discriminate]. inversion H; subst. destruct (IH _ _ eq_refl) as (u & -> & G). exists u. auto.
Qed.
Lemma no_semi : forall ts, negb (existsb is_semi ts) = true -> ~ In Semi ts.
Proof.
  intros ts H G. apply negb_true_iff in H. assert (existsb is_semi ts = true) by (apply existsb_exists; exists Semi; auto). congruence.
Qed.
Lemma type_semi : forall t, is_type t = true -> ~ In Semi t.
Proof. intros t H. apply andb_prop in H. apply no_semi, H. Qed.
Lemma expression_semi : forall e, expression e = true -> ~ In Semi e.
Proof. intros e H. apply andb_prop in H. apply no_semi, H. Qed.
Lemma typed_inv : forall r t u e, typed rust0 r = Some (t, u, e) -> r = t ++ Comma :: u ++ Colon :: e /\ is_type t = true /\ is_type u = true /\ expression e = true.
Proof.
  intros r t u e H. cbn in H. destruct (split_at is_comma r) as [[t' r']|] eqn:S1; [|discriminate]. destruct (split_at is_colon r') as [[u' e']|] eqn:S2; [|discriminate].
  destruct (is_type t') eqn:T; [|discriminate]. destruct (is_type u') eqn:U; [|discriminate]. destruct (expression e') eqn:X; [|discriminate].
  inversion H; subst. apply split_at_app in S1, S2. destruct S1 as (a & -> & A), S2 as (b & -> & B). destruct a; try discriminate. destruct b; try discriminate. auto.
Qed.
Lemma rust0_lawful : lawful rust0.
Proof.
  split.
  - reflexivity.
  - intros [|[] [|[] v]] p rest H; cbn in H; inversion H; reflexivity.
  - intros v x ty rest H. cbn in H. destruct v as [|[] [|[] [|t [|[] v]]]]; try discriminate. destruct (is_type [t]); inversion H; reflexivity.
  - intros [|[] [|[] v]] H; cbn in *; congruence.
  - intros r t u e H. apply typed_inv in H. apply H.
  - exact expression_semi.
  - intros r [[t u] e] H. apply typed_inv in H. destruct H as (-> & T & U & X). intros G. apply in_app_or in G. destruct G as [G|[G|G]]; [exact (type_semi _ T G)|discriminate|].
    apply in_app_or in G. destruct G as [G|[G|G]]; [exact (type_semi _ U G)|discriminate|exact (expression_semi _ X G)].
  - intros r. cbn. unfold expression. apply andb_false_r.
Qed.

(** [parse!{Input(z); ts}] with the functions [fns]. *)
Definition run (fns : nat -> tenv -> list val -> parser Z val val) (ts : list tok) (z : Z) : option (pres Z val val) :=
  let value rho e := match evaluate 9 rho e with Some v => v | None => VBad end in
  let m := {| m_value := value;
              m_error := value;
              m_inline := fun rho s e => match inline rho e with Some p => p | None => bad end;
              m_call := fun rho f ps => fns f rho (List.map (value rho) ps) |} in
  match expand_parse rust0 (Some ts) with
  | Some c => Some (eval m c [] [inp z])
  | None => None
  end.
