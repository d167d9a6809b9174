(** The unit tests of src/macros.rs:606-1573, stated about the model and checked by computation.  Generated by tools/macro_tests.py.  They are
    evidence that the model is the code (the expected values are those the authors assert), not proofs of properties.

    The tests replace [Input] and [ParseResult] by simplified types (src/macros.rs:624-667) whose input is one number; here that is an input with
    the number as its only item.  rustc's fragments are those the tests need. *)
From Coq Require Import List Bool Arith ZArith String.
From Verif Require Import Base Combinators Macro SpecMacro.
Import ListNotations.
Open Scope Z_scope.
Open Scope nat_scope.

(** Values and errors of the tests. *)
Inductive val : Type :=
| VNum (z : Z)
| VStr (s : string)
| VTup (l : list val)
| VBad.
Bind Scope Z_scope with Z.
Definition v_add (a b : val) : val := match a, b with VNum x, VNum y => VNum (x + y) | _, _ => VBad end.
Definition v_sub (a b : val) : val := match a, b with VNum x, VNum y => VNum (x - y) | _, _ => VBad end.
Fixpoint val_eqb (a b : val) : bool :=
  match a, b with
  | VNum x, VNum y => Z.eqb x y
  | VStr s, VStr t => String.eqb s t
  | VTup l, VTup k =>
      (fix go l k := match l, k with [], [] => true | x :: l, y :: k => val_eqb x y && go l k | _, _ => false end) l k
  | _, _ => false
  end.

(** src/macros.rs:624-667: [Input(z)], and the outcomes. *)
Definition inp (z : Z) : input Z := mkInput true [z].
Definition value (z : Z) (v : val) : parser Z val val := fun _ => Data (inp z) v.
Definition error (z : Z) (v : val) : parser Z val val := fun _ => Error [z] v.
Definition value_here (v : val) : parser Z val val := ret v.
Definition error_here (v : val) : parser Z val val := err v.
Definition bad : parser Z val val := fun _ => Panic.
(** [assert_eq!(i.0, z)] and [assert_eq!(a, b)] in the functions of the tests. *)
Definition at_ (z : Z) (p : parser Z val val) : parser Z val val := fun i => match buf i with [x] => if Z.eqb x z then p i else Panic | _ => Panic end.
Definition same (a b : val) (p : parser Z val val) : parser Z val val := if val_eqb a b then p else bad.
Definition arg (ps : list val) (n : nat) : val := nth n ps VBad.

(** What the binders of closures bind: identifiers, pairs of them, typed identifiers. *)
Definition tenv : Type := list (binder * val).
Fixpoint var (rho : tenv) (n : nat) : val :=
  match rho with
  | [] => VBad
  | (b, v) :: rho =>
      match b with
      | BPat [Ident m] => if m =? n then v else var rho n
      | BPat [Group [Ident x; Comma; Ident y]] =>
          match v with
          | VTup [a; b] => if x =? n then a else if y =? n then b else var rho n
          | _ => VBad
          end
      | BTyped m _ => if m =? n then v else var rho n
      | _ => var rho n
      end
  end.

(** The literals of the tests, [Other 100] and so on. *)
Definition literals : list val := [VStr "foo"%string; VStr "doit"%string; VNum 1337; VNum 22; VNum 33; VNum 1; VNum 2; VNum 5; VNum 4; VNum 40; VNum 6; VNum 3; VNum 42; VNum 23; VStr "test"%string; VStr "throwaway"%string; VStr "error"%string; VStr "this"%string; VStr "not this"%string].

(** Blocks in braces of the tests, [Other 10] and so on. *)
Definition blocks : list (tenv -> parser Z val val) :=
  [fun rho => (at_ 123 (value_here (VNum 23)));
   fun rho => (at_ 321 (value_here (VNum 23)));
   fun rho => (at_ 123 (value_here (VNum 23)));
   fun rho => (same (var rho 5) (VNum 2) (at_ 321 (value_here (v_add (VNum 23) (var rho 5)))));
   fun rho => (at_ 123 (value 321 (VNum 21)));
   fun rho => (at_ 321 (value 333 (VNum 42)));
   fun rho => (at_ 123 (value 321 (VNum 21)));
   fun rho => (at_ 321 (value 333 (VNum 42)));
   fun rho => (at_ 123 (value 321 (VNum 21)));
   fun rho => (at_ 321 (value 333 (VNum 42)))].

(** * Rust expressions and types of the tests *)

(** [Other 0] is [+], 1 [-], 2 [.], 3 [::], 4 [&], 5 [as], 6 [_]. *)
Definition is_semi (t : tok) : bool := match t with Semi => true | _ => false end.
Definition is_type (ts : list tok) : bool :=
  negb (existsb is_semi ts) &&
  match ts with
  | [Other 6] | [Group []] | [Other 4; Ident _] | [Ident _] => true
  | _ => false
  end.
Definition is_comma (t : tok) : bool := match t with Comma => true | _ => false end.
Definition is_colon (t : tok) : bool := match t with Colon => true | _ => false end.
Fixpoint split_at (f : tok -> bool) (ts : list tok) : option (list tok * list tok) :=
  match ts with
  | [] => None
  | t :: ts => if f t then Some ([], ts) else match split_at f ts with Some (a, b) => Some (t :: a, b) | None => None end
  end.
Fixpoint splits (fuel : nat) (ts : list tok) : list (list tok) :=
  match fuel, split_at is_comma ts with
  | S fuel, Some (a, b) => a :: (match b with [] => [] | _ => splits fuel b end)
  | _, _ => [ts]
  end.

(** The value of an expression: sums and differences of literals, variables, tuples, with casts. *)
Fixpoint evaluate (fuel : nat) (rho : tenv) (ts : list tok) : option val :=
  match fuel with
  | 0 => None
  | S fuel =>
      let prim t :=
        match t with
        | Ident n => Some (var rho n)
        | Other n => if n <? 100 then None else nth_error literals (n - 100)
        | Group [] => Some (VTup [])
        | Group l =>
            match splits (List.length l) l with
            | [e] => evaluate fuel rho e
            | es => fold_right (fun e r => match evaluate fuel rho e, r with Some v, Some (VTup vs) => Some (VTup (v :: vs)) | _, _ => None end) (Some (VTup [])) es
            end
        | _ => None
        end in
      let fix more acc ts :=
        match ts with
        | [] => Some acc
        | Other 5 :: Ident _ :: ts => more acc ts
        | Other 0 :: t :: Other 5 :: Ident _ :: ts => match prim t with Some v => more (v_add acc v) ts | None => None end
        | Other 1 :: t :: Other 5 :: Ident _ :: ts => match prim t with Some v => more (v_sub acc v) ts | None => None end
        | Other 0 :: t :: ts => match prim t with Some v => more (v_add acc v) ts | None => None end
        | Other 1 :: t :: ts => match prim t with Some v => more (v_sub acc v) ts | None => None end
        | _ => None
        end in
      match ts with
      | t :: ts => match prim t with Some v => more v ts | None => None end
      | [] => None
      end
  end.
(** Parsers inline: a block, or [s.ret::<t, u>(e)]. *)
Definition inline (rho : tenv) (ts : list tok) : option (parser Z val val) :=
  match ts with
  | [Other n] => if (10 <=? n) && (n <? 100) then match nth_error blocks (n - 10) with Some p => Some (p rho) | None => None end else None
  | [Ident _; Other 2; Ident 0; Other 3; Lt; t; Comma; u; Gt; Group e] =>
      if is_type [t] && is_type [u] then match evaluate 9 rho e with Some v => Some (ret v) | None => None end else None
  | _ => None
  end.
Definition expression (ts : list tok) : bool :=
  negb (existsb is_semi ts) &&
  match ts with
  | [] | At :: _ => false
  | _ => match evaluate 9 [] ts, inline [] ts with None, None => false | _, _ => true end
  end.

Definition rust0 : rustc := {|
  is_expr := expression;
  typed := fun ts =>
    match split_at is_comma ts with
    | Some (t, r) =>
        match split_at is_colon r with
        | Some (u, e) => if is_type t && is_type u && expression e then Some (t, u, e) else None
        | None => None
        end
    | None => None
    end;
  args := fun ts => match ts with [] => Some [] | _ => let es := splits (List.length ts) ts in if forallb expression es then Some es else None end;
  let_pat := fun ts =>
    match ts with
    | Ident n :: Eq :: rest => Some ([Ident n], rest)
    | Group l :: Eq :: rest => Some ([Group l], rest)
    | _ => None
    end;
  let_typed := fun ts =>
    match ts with
    | Ident n :: Colon :: t :: Eq :: rest => if is_type [t] then Some (n, [t], rest) else None
    | _ => None
    end |}.

(** This rustc obeys the laws that the theorems of C40 require. *)
Lemma split_at_app : forall f ts a b, split_at f ts = Some (a, b) -> exists t, ts = a ++ t :: b /\ f t = true.
Proof.
  induction ts as [|t ts IH]; intros a b H; cbn in H; [discriminate|]. destruct (f t) eqn:F.
  - inversion H; subst. exists t. auto.
  - destruct (split_at f ts) as [[a' b']|]; [|discriminate]. inversion H; subst. destruct (IH _ _ eq_refl) as (u & -> & G). exists u. auto.
Qed.
Lemma no_semi : forall ts, negb (existsb is_semi ts) = true -> ~ In Semi ts.
Proof.
  intros ts H G. apply negb_true_iff in H. assert (existsb is_semi ts = true) by (apply existsb_exists; exists Semi; auto). congruence.
Qed.
Lemma type_semi : forall t, is_type t = true -> ~ In Semi t.
Proof. intros t H. apply andb_prop in H. apply no_semi, H. Qed.
Lemma expression_semi : forall e, expression e = true -> ~ In Semi e.
Proof. intros e H. apply andb_prop in H. apply no_semi, H. Qed.
Lemma typed_inv : forall r t u e, typed rust0 r = Some (t, u, e) -> r = t ++ Comma :: u ++ Colon :: e /\ is_type t = true /\ is_type u = true /\ expression e = true.
Proof.
  intros r t u e H. cbn in H. destruct (split_at is_comma r) as [[t' r']|] eqn:S1; [|discriminate]. destruct (split_at is_colon r') as [[u' e']|] eqn:S2; [|discriminate].
  destruct (is_type t') eqn:T; [|discriminate]. destruct (is_type u') eqn:U; [|discriminate]. destruct (expression e') eqn:X; [|discriminate].
  inversion H; subst. apply split_at_app in S1, S2. destruct S1 as (a & -> & A), S2 as (b & -> & B). destruct a; try discriminate. destruct b; try discriminate. auto.
Qed.
Lemma rust0_lawful : lawful rust0.
Proof.
  split.
  - reflexivity.
  - intros [|[] [|[] v]] p rest H; cbn in H; inversion H; reflexivity.
  - intros v x ty rest H. cbn in H. destruct v as [|[] [|[] [|t [|[] v]]]]; try discriminate. destruct (is_type [t]); inversion H; reflexivity.
  - intros [|[] [|[] v]] H; cbn in *; congruence.
  - intros r t u e H. apply typed_inv in H. apply H.
  - exact expression_semi.
  - intros r [[t u] e] H. apply typed_inv in H. destruct H as (-> & T & U & X). intros G. apply in_app_or in G. destruct G as [G|[G|G]]; [exact (type_semi _ T G)|discriminate|].
    apply in_app_or in G. destruct G as [G|[G|G]]; [exact (type_semi _ U G)|discriminate|exact (expression_semi _ X G)].
  - intros r. cbn. unfold expression. apply andb_false_r.
Qed.

(** [parse!{Input(z); ts}] with the functions [fns]. *)
Definition run (fns : nat -> tenv -> list val -> parser Z val val) (ts : list tok) (z : Z) : option (pres Z val val) :=
  let value rho e := match evaluate 9 rho e with Some v => v | None => VBad end in
  let m := {| m_value := value;
              m_error := value;
              m_inline := fun rho s e => match inline rho e with Some p => p | None => bad end;
              m_call := fun rho f ps => fns f rho (List.map (value rho) ps) |} in
  match expand_parse rust0 (Some ts) with
  | Some c => Some (eval m c [] [inp z])
  | None => None
  end.

(** Names: 0 ret, 1 err, 2 str, 3 doit, 4 something, 5 n, 6 x, 7 u8, 8 _x, 9 u64, 10 y, 11 i32, 12 s, 13 v, 14 u32, 15 a, 16 fail, 17 next, 18 b, 19 c, 20 c_a, 21 input. *)

(** src/macros.rs:668 [empty]. *)
Example test_empty :
  expand_parse rust0 None = Some (CInput 0).
Proof. repeat split; vm_compute; reflexivity. Qed.

(** src/macros.rs:677 [empty_expr]. *)
Example test_empty_expr :
  expand_parse rust0 None = Some (CInput 0).
Proof. repeat split; vm_compute; reflexivity. Qed.

(** src/macros.rs:684 [ret]. *)
Definition fns_ret : nat -> tenv -> list val -> parser Z val val := fun f rho ps => bad.
Example test_ret :
  run fns_ret [Ident 0; Other 100] 123 = Some (Data (inp 123) (VStr "foo"%string)).
Proof. repeat split; vm_compute; reflexivity. Qed.

(** src/macros.rs:694 [ret_typed]. *)
Definition fns_ret_typed : nat -> tenv -> list val -> parser Z val val := fun f rho ps => bad.
Example test_ret_typed :
  run fns_ret_typed [Ident 0; At; Other 6; Comma; Group []; Colon; Other 100] 123 = Some (Data (inp 123) (VStr "foo"%string)).
Proof. repeat split; vm_compute; reflexivity. Qed.

(** src/macros.rs:703 [ret_typed2]. *)
Definition fns_ret_typed2 : nat -> tenv -> list val -> parser Z val val := fun f rho ps => bad.
Example test_ret_typed2 :
  run fns_ret_typed2 [Ident 0; At; Other 4; Ident 2; Comma; Group []; Colon; Other 100] 123 = Some (Data (inp 123) (VStr "foo"%string)).
Proof. repeat split; vm_compute; reflexivity. Qed.

(** src/macros.rs:712 [err]. *)
Definition fns_err : nat -> tenv -> list val -> parser Z val val := fun f rho ps => bad.
Example test_err :
  run fns_err [Ident 1; Other 100] 123 = Some (Error [123%Z] (VStr "foo"%string)).
Proof. repeat split; vm_compute; reflexivity. Qed.

(** src/macros.rs:722 [err_typed]. *)
Definition fns_err_typed : nat -> tenv -> list val -> parser Z val val := fun f rho ps => bad.
Example test_err_typed :
  run fns_err_typed [Ident 1; At; Group []; Comma; Other 6; Colon; Other 100] 123 = Some (Error [123%Z] (VStr "foo"%string)).
Proof. repeat split; vm_compute; reflexivity. Qed.

(** src/macros.rs:731 [err_typed2]. *)
Definition fns_err_typed2 : nat -> tenv -> list val -> parser Z val val := fun f rho ps => bad.
Example test_err_typed2 :
  run fns_err_typed2 [Ident 1; At; Group []; Comma; Other 4; Ident 2; Colon; Other 100] 123 = Some (Error [123%Z] (VStr "foo"%string)).
Proof. repeat split; vm_compute; reflexivity. Qed.

(** src/macros.rs:740 [action]. *)
Definition fns_action : nat -> tenv -> list val -> parser Z val val := fun f rho ps => if f =? 3 then (value_here  (VStr "doit"%string)) else bad.
Example test_action :
  run fns_action [Ident 3; Group []] 123 = Some (Data (inp 123) (VStr "doit"%string)).
Proof. repeat split; vm_compute; reflexivity. Qed.

(** src/macros.rs:753 [action2]. *)
Definition fns_action2 : nat -> tenv -> list val -> parser Z val val := fun f rho ps => if f =? 3 then (value_here  (arg ps 0)) else bad.
Example test_action2 :
  run fns_action2 [Ident 3; Group [Other 101]] 123 = Some (Data (inp 123) (VStr "doit"%string)).
Proof. repeat split; vm_compute; reflexivity. Qed.

(** src/macros.rs:766 [action3]. *)
Definition fns_action3 : nat -> tenv -> list val -> parser Z val val := fun f rho ps => if f =? 3 then (value_here  (VTup [(arg ps 0); (arg ps 1)])) else bad.
Example test_action3 :
  run fns_action3 [Ident 3; Group [Other 101; Comma; Other 102]] 123 = Some (Data (inp 123) (VTup [(VStr "doit"%string); (VNum 1337)])).
Proof. repeat split; vm_compute; reflexivity. Qed.

(** src/macros.rs:779 [two_actions]. *)
Definition fns_two_actions : nat -> tenv -> list val -> parser Z val val := fun f rho ps => if f =? 3 then (at_ 123 (value 321 (VNum 1))) else if f =? 4 then (at_ 321 (value 123 (VNum 2))) else bad.
Example test_two_actions :
  run fns_two_actions [Ident 3; Group []; Semi; Ident 4; Group []] 123 = Some (Data (inp 123) (VNum 2)).
Proof. repeat split; vm_compute; reflexivity. Qed.

(** src/macros.rs:799 [two_actions2]. *)
Definition fns_two_actions2 : nat -> tenv -> list val -> parser Z val val := fun f rho ps => if f =? 3 then (at_ 123 (value 321 (arg ps 0))) else if f =? 4 then (at_ 321 (value 123 (arg ps 0))) else bad.
Example test_two_actions2 :
  run fns_two_actions2 [Ident 3; Group [Other 103]; Semi; Ident 4; Group [Other 104]] 123 = Some (Data (inp 123) (VNum 33)).
Proof. repeat split; vm_compute; reflexivity. Qed.

(** src/macros.rs:819 [two_actions3]. *)
Definition fns_two_actions3 : nat -> tenv -> list val -> parser Z val val := fun f rho ps => if f =? 3 then (at_ 123 (value 321 (VTup [(arg ps 0); (arg ps 1)]))) else if f =? 4 then (at_ 321 (value 123 (VTup [(arg ps 0); (arg ps 1)]))) else bad.
Example test_two_actions3 :
  run fns_two_actions3 [Ident 3; Group [Other 103; Comma; Other 105]; Semi; Ident 4; Group [Other 104; Comma; Other 106]] 123 = Some (Data (inp 123) (VTup [(VNum 33); (VNum 2)])).
Proof. repeat split; vm_compute; reflexivity. Qed.

(** src/macros.rs:839 [action_ret]. *)
Definition fns_action_ret : nat -> tenv -> list val -> parser Z val val := fun f rho ps => if f =? 3 then (at_ 123 (value 321 (arg ps 0))) else bad.
Example test_action_ret :
  run fns_action_ret [Ident 3; Group [Other 106]; Semi; Ident 0; Other 107] 123 = Some (Data (inp 321) (VNum 5)) /\
  run fns_action_ret [Ident 3; Group [Other 106]; Semi; Ident 0; At; Other 6; Comma; Group []; Colon; Other 107] 123 = Some (Data (inp 321) (VNum 5)).
Proof. repeat split; vm_compute; reflexivity. Qed.

(** src/macros.rs:857 [action_ret2]. *)
Definition fns_action_ret2 : nat -> tenv -> list val -> parser Z val val := fun f rho ps => if f =? 3 then (at_ 123 (value 321 (arg ps 0))) else if f =? 4 then (at_ 321 (value 111 (VTup [(arg ps 0); (arg ps 1)]))) else bad.
Example test_action_ret2 :
  run fns_action_ret2 [Ident 3; Group [Other 106]; Semi; Ident 4; Group [Other 108; Comma; Other 107]; Semi; Ident 0; Other 107] 123 = Some (Data (inp 111) (VNum 5)) /\
  run fns_action_ret2 [Ident 3; Group [Other 106]; Semi; Ident 4; Group [Other 108; Comma; Other 107]; Semi; Ident 0; At; Other 6; Comma; Group []; Colon; Other 107] 123 = Some (Data (inp 111) (VNum 5)).
Proof. repeat split; vm_compute; reflexivity. Qed.

(** src/macros.rs:880 [bind]. *)
Definition fns_bind : nat -> tenv -> list val -> parser Z val val := fun f rho ps => if f =? 3 then (at_ 123 (value 321 (arg ps 0))) else bad.
Example test_bind :
  run fns_bind [Let; Ident 5; Eq; Ident 3; Group [Other 109]; Semi; Ident 0; Ident 5; Other 0; Other 106] 123 = Some (Data (inp 321) (VNum 42)) /\
  run fns_bind [Let; Ident 5; Eq; Ident 3; Group [Other 109]; Semi; Ident 0; At; Other 6; Comma; Group []; Colon; Ident 5; Other 0; Other 106] 123 = Some (Data (inp 321) (VNum 42)).
Proof. repeat split; vm_compute; reflexivity. Qed.

(** src/macros.rs:898 [bind2]. *)
Definition fns_bind2 : nat -> tenv -> list val -> parser Z val val := fun f rho ps => if f =? 3 then (at_ 123 (value 321 (arg ps 0))) else if f =? 4 then (at_ 321 (value 111 (v_sub (arg ps 0) (arg ps 1)))) else bad.
Example test_bind2 :
  run fns_bind2 [Let; Ident 5; Eq; Ident 3; Group [Other 109]; Semi; Let; Ident 6; Eq; Ident 4; Group [Ident 5; Comma; Other 108]; Semi; Ident 0; Ident 6; Other 0; Other 110] 123 = Some (Data (inp 111) (VNum 42)) /\
  run fns_bind2 [Let; Ident 5; Eq; Ident 3; Group [Other 109]; Semi; Let; Ident 6; Eq; Ident 4; Group [Ident 5; Comma; Other 108]; Semi; Ident 0; At; Other 6; Comma; Group []; Colon; Ident 6; Other 0; Other 110] 123 = Some (Data (inp 111) (VNum 42)).
Proof. repeat split; vm_compute; reflexivity. Qed.

(** src/macros.rs:922 [bind3]. *)
Definition fns_bind3 : nat -> tenv -> list val -> parser Z val val := fun f rho ps => if f =? 3 then (at_ 123 (value 321 (arg ps 0))) else bad.
Example test_bind3 :
  run fns_bind3 [Let; Ident 5; Eq; Ident 3; Group [Other 109]; Semi; Ident 1; Ident 5; Other 5; Ident 7; Other 0; Other 106] 123 = Some (Error [321%Z] (VNum 42)) /\
  run fns_bind3 [Let; Ident 5; Eq; Ident 3; Group [Other 109]; Semi; Ident 1; At; Group []; Comma; Ident 7; Colon; Ident 5; Other 5; Ident 7; Other 0; Other 106] 123 = Some (Error [321%Z] (VNum 42)).
Proof. repeat split; vm_compute; reflexivity. Qed.

(** src/macros.rs:940 [bind4]. *)
Definition fns_bind4 : nat -> tenv -> list val -> parser Z val val := fun f rho ps => if f =? 3 then (at_ 123 (value 321 (arg ps 0))) else if f =? 4 then (at_ 321 (value 111 (v_sub (arg ps 0) (arg ps 1)))) else bad.
Example test_bind4 :
  run fns_bind4 [Let; Ident 5; Eq; Ident 3; Group [Other 109]; Semi; Let; Ident 6; Eq; Ident 4; Group [Ident 5; Comma; Other 108]; Semi; Ident 1; Ident 6; Other 5; Ident 7; Other 0; Other 110] 123 = Some (Error [111%Z] (VNum 42)) /\
  run fns_bind4 [Let; Ident 5; Eq; Ident 3; Group [Other 109]; Semi; Let; Ident 6; Eq; Ident 4; Group [Ident 5; Comma; Other 108]; Semi; Ident 1; At; Group []; Comma; Ident 7; Colon; Ident 6; Other 5; Ident 7; Other 0; Other 110] 123 = Some (Error [111%Z] (VNum 42)).
Proof. repeat split; vm_compute; reflexivity. Qed.

(** src/macros.rs:964 [bind_then]. *)
Definition fns_bind_then : nat -> tenv -> list val -> parser Z val val := fun f rho ps => if f =? 3 then (at_ 111 (value 321 (arg ps 0))) else if f =? 4 then (at_ 123 (value 111 (v_sub (arg ps 0) (arg ps 1)))) else bad.
Example test_bind_then :
  run fns_bind_then [Let; Ident 6; Eq; Ident 4; Group [Other 110; Comma; Other 108]; Semi; Ident 3; Group [Ident 6]] 123 = Some (Data (inp 321) (VNum 2)) /\
  run fns_bind_then [Let; Ident 6; Eq; Ident 4; Group [Other 110; Comma; Other 108]; Semi; Ident 3; Group [Ident 6]] 123 = Some (Data (inp 321) (VNum 2)).
Proof. repeat split; vm_compute; reflexivity. Qed.

(** src/macros.rs:987 [bind_then2]. *)
Definition fns_bind_then2 : nat -> tenv -> list val -> parser Z val val := fun f rho ps => if f =? 3 then (at_ 111 (value 321 (arg ps 0))) else if f =? 4 then (at_ 123 (value 111 (v_sub (arg ps 0) (arg ps 1)))) else bad.
Example test_bind_then2 :
  run fns_bind_then2 [Let; Ident 8; Eq; Ident 4; Group [Other 110; Comma; Other 108]; Semi; Ident 3; Group [Other 111]] 123 = Some (Data (inp 321) (VNum 3)) /\
  run fns_bind_then2 [Let; Ident 8; Eq; Ident 4; Group [Other 110; Comma; Other 108]; Semi; Ident 3; Group [Other 111]] 123 = Some (Data (inp 321) (VNum 3)).
Proof. repeat split; vm_compute; reflexivity. Qed.

(** src/macros.rs:1010 [bind_type]. *)
Definition fns_bind_type : nat -> tenv -> list val -> parser Z val val := fun f rho ps => if f =? 3 then (at_ 123 (value 321 (arg ps 0))) else bad.
Example test_bind_type :
  run fns_bind_type [Let; Ident 5; Colon; Ident 9; Eq; Ident 3; Group [Other 112]; Semi; Ident 0; Ident 5] 123 = Some (Data (inp 321) (VNum 42)) /\
  run fns_bind_type [Let; Ident 5; Colon; Ident 9; Eq; Ident 3; Group [Other 112]; Semi; Ident 0; At; Other 6; Comma; Group []; Colon; Ident 5] 123 = Some (Data (inp 321) (VNum 42)).
Proof. repeat split; vm_compute; reflexivity. Qed.

(** src/macros.rs:1028 [bind_pattern]. *)
Definition fns_bind_pattern : nat -> tenv -> list val -> parser Z val val := fun f rho ps => if f =? 4 then (at_ 123 (value 111 (VTup [(arg ps 0); (arg ps 1)]))) else bad.
Example test_bind_pattern :
  run fns_bind_pattern [Let; Group [Ident 6; Comma; Ident 10]; Eq; Ident 4; Group [Other 106; Comma; Other 108]; Semi; Ident 0; Ident 6; Other 0; Ident 10] 123 = Some (Data (inp 111) (VNum 6)) /\
  run fns_bind_pattern [Let; Group [Ident 6; Comma; Ident 10]; Eq; Ident 4; Group [Other 106; Comma; Other 108]; Semi; Ident 0; At; Other 6; Comma; Group []; Colon; Ident 6; Other 0; Ident 10] 123 = Some (Data (inp 111) (VNum 6)).
Proof. repeat split; vm_compute; reflexivity. Qed.

(** src/macros.rs:1046 [bind_pattern2]. *)
Definition fns_bind_pattern2 : nat -> tenv -> list val -> parser Z val val := fun f rho ps => if f =? 3 then (at_ 123 (value 321 (arg ps 0))) else if f =? 4 then (at_ 321 (value 111 (VTup [(arg ps 0); (arg ps 1)]))) else bad.
Example test_bind_pattern2 :
  run fns_bind_pattern2 [Let; Ident 5; Eq; Ident 3; Group [Other 109]; Semi; Let; Group [Ident 6; Comma; Ident 10]; Eq; Ident 4; Group [Ident 5; Comma; Other 108]; Semi; Ident 0; Ident 6; Other 0; Ident 10; Other 5; Ident 11] 123 = Some (Data (inp 111) (VNum 44)) /\
  run fns_bind_pattern2 [Let; Ident 5; Eq; Ident 3; Group [Other 109]; Semi; Let; Group [Ident 6; Comma; Ident 10]; Eq; Ident 4; Group [Ident 5; Comma; Other 108]; Semi; Ident 0; At; Other 6; Comma; Group []; Colon; Ident 6; Other 0; Ident 10; Other 5; Ident 11] 123 = Some (Data (inp 111) (VNum 44)).
Proof. repeat split; vm_compute; reflexivity. Qed.

(** src/macros.rs:1071 [action_err]. *)
Definition fns_action_err : nat -> tenv -> list val -> parser Z val val := fun f rho ps => if f =? 3 then (at_ 123 (value 321 (arg ps 0))) else bad.
Example test_action_err :
  run fns_action_err [Ident 3; Group [Other 106]; Semi; Ident 1; Other 107] 123 = Some (Error [321%Z] (VNum 5)) /\
  run fns_action_err [Ident 3; Group [Other 106]; Semi; Ident 1; At; Group []; Comma; Ident 7; Colon; Other 107] 123 = Some (Error [321%Z] (VNum 5)).
Proof. repeat split; vm_compute; reflexivity. Qed.

(** src/macros.rs:1089 [action_err2]. *)
Definition fns_action_err2 : nat -> tenv -> list val -> parser Z val val := fun f rho ps => if f =? 3 then (at_ 123 (value 321 (arg ps 0))) else if f =? 4 then (at_ 321 (value 111 (VTup [(arg ps 0); (arg ps 1)]))) else bad.
Example test_action_err2 :
  run fns_action_err2 [Ident 3; Group [Other 106]; Semi; Ident 4; Group [Other 108; Comma; Other 107]; Semi; Ident 1; Other 107] 123 = Some (Error [111%Z] (VNum 5)) /\
  run fns_action_err2 [Ident 3; Group [Other 106]; Semi; Ident 4; Group [Other 108; Comma; Other 107]; Semi; Ident 1; At; Group []; Comma; Ident 7; Colon; Other 107] 123 = Some (Error [111%Z] (VNum 5)).
Proof. repeat split; vm_compute; reflexivity. Qed.

(** src/macros.rs:1112 [inline_action]. *)
Definition fns_inline_action : nat -> tenv -> list val -> parser Z val val := fun f rho ps => bad.
Example test_inline_action :
  run fns_inline_action [Ident 12; Arrow; Other 10] 123 = Some (Data (inp 123) (VNum 23)).
Proof. repeat split; vm_compute; reflexivity. Qed.

(** src/macros.rs:1128 [inline_action2]. *)
Definition fns_inline_action2 : nat -> tenv -> list val -> parser Z val val := fun f rho ps => if f =? 3 then (at_ 123 (value 321 (VNum 2))) else bad.
Example test_inline_action2 :
  run fns_inline_action2 [Ident 3; Group []; Semi; Ident 12; Arrow; Other 11] 123 = Some (Data (inp 321) (VNum 23)).
Proof. repeat split; vm_compute; reflexivity. Qed.

(** src/macros.rs:1151 [inline_action3]. *)
Definition fns_inline_action3 : nat -> tenv -> list val -> parser Z val val := fun f rho ps => bad.
Example test_inline_action3 :
  run fns_inline_action3 [Ident 12; Arrow; Ident 12; Other 2; Ident 0; Other 3; Lt; Ident 7; Comma; Group []; Gt; Group [Other 113]] 123 = Some (Data (inp 123) (VNum 23)).
Proof. repeat split; vm_compute; reflexivity. Qed.

(** src/macros.rs:1162 [inline_action_bind]. *)
Definition fns_inline_action_bind : nat -> tenv -> list val -> parser Z val val := fun f rho ps => bad.
Example test_inline_action_bind :
  run fns_inline_action_bind [Let; Ident 13; Eq; Ident 12; Arrow; Other 12; Semi; Ident 0; At; Ident 14; Comma; Group []; Colon; Ident 13; Other 0; Other 106] 123 = Some (Data (inp 123) (VNum 25)).
Proof. repeat split; vm_compute; reflexivity. Qed.

(** src/macros.rs:1178 [inline_action_bind2]. *)
Definition fns_inline_action_bind2 : nat -> tenv -> list val -> parser Z val val := fun f rho ps => if f =? 3 then (at_ 123 (value 321 (VNum 2))) else bad.
Example test_inline_action_bind2 :
  run fns_inline_action_bind2 [Let; Ident 5; Eq; Ident 3; Group []; Semi; Let; Ident 13; Eq; Ident 12; Arrow; Other 13; Semi; Ident 0; At; Ident 14; Comma; Group []; Colon; Ident 13; Other 0; Other 111] 123 = Some (Data (inp 321) (VNum 28)).
Proof. repeat split; vm_compute; reflexivity. Qed.

(** src/macros.rs:1202 [expr_ret]. *)
Definition fns_expr_ret : nat -> tenv -> list val -> parser Z val val := fun f rho ps => bad.
Example test_expr_ret :
  run fns_expr_ret [Let; Ident 15; Eq; Ident 0; Other 114; Semi; Ident 0; Ident 15] 123 = Some (Data (inp 123) (VStr "test"%string)) /\
  run fns_expr_ret [Ident 0; Other 115; Semi; Ident 0; Other 100] 123 = Some (Data (inp 123) (VStr "foo"%string)).
Proof. repeat split; vm_compute; reflexivity. Qed.

(** src/macros.rs:1214 [expr_err]. *)
Definition fns_expr_err : nat -> tenv -> list val -> parser Z val val := fun f rho ps => bad.
Example test_expr_err :
  run fns_expr_err [Let; Ident 15; Eq; Ident 1; Other 116; Semi; Ident 0; Ident 15] 123 = Some (Error [123%Z] (VStr "error"%string)) /\
  run fns_expr_err [Ident 1; At; Group []; Comma; Other 6; Colon; Other 117; Semi; Ident 1; Other 118] 123 = Some (Error [123%Z] (VStr "this"%string)).
Proof. repeat split; vm_compute; reflexivity. Qed.

(** src/macros.rs:1228 [alt]. *)
Definition fns_alt : nat -> tenv -> list val -> parser Z val val := fun f rho ps => if f =? 16 then (at_ 123 (error 456 (VTup []))) else if f =? 3 then (at_ 123 (value 321 (VNum 2))) else bad.
Example test_alt :
  run fns_alt [Ident 16; Group []; Lt; Bar; Gt; Ident 3; Group []] 123 = Some (Data (inp 321) (VNum 2)) /\
  run fns_alt [Ident 3; Group []; Lt; Bar; Gt; Ident 16; Group []] 123 = Some (Data (inp 321) (VNum 2)) /\
  run fns_alt [Ident 3; Group []; Lt; Bar; Gt; Ident 3; Group []] 123 = Some (Data (inp 321) (VNum 2)) /\
  run fns_alt [Ident 16; Group []; Lt; Bar; Gt; Ident 16; Group []] 123 = Some (Error [456%Z] (VTup [])).
Proof. repeat split; vm_compute; reflexivity. Qed.

(** src/macros.rs:1257 [alt2]. *)
Definition fns_alt2 : nat -> tenv -> list val -> parser Z val val := fun f rho ps => if f =? 16 then (at_ 123 (error 456 (VTup []))) else if f =? 3 then (at_ 123 (value 321 (VNum 2))) else bad.
Example test_alt2 :
  run fns_alt2 [Ident 16; Group []; Lt; Bar; Gt; Ident 16; Group []; Lt; Bar; Gt; Ident 3; Group []] 123 = Some (Data (inp 321) (VNum 2)).
Proof. repeat split; vm_compute; reflexivity. Qed.

(** src/macros.rs:1278 [chain_alt]. *)
Definition fns_chain_alt : nat -> tenv -> list val -> parser Z val val := fun f rho ps => if f =? 16 then (at_ 123 (error 456 (VTup []))) else if f =? 3 then (at_ 123 (value 321 (VNum 2))) else if f =? 17 then (at_ 321 (value 322 (VNum 42))) else bad.
Example test_chain_alt :
  run fns_chain_alt [Ident 16; Group []; Lt; Bar; Gt; Ident 3; Group []; Semi; Ident 17; Group []] 123 = Some (Data (inp 322) (VNum 42)) /\
  run fns_chain_alt [Ident 3; Group []; Lt; Bar; Gt; Ident 16; Group []; Semi; Ident 17; Group []] 123 = Some (Data (inp 322) (VNum 42)) /\
  run fns_chain_alt [Ident 16; Group []; Lt; Bar; Gt; Ident 16; Group []; Semi; Ident 17; Group []] 123 = Some (Error [456%Z] (VTup [])).
Proof. repeat split; vm_compute; reflexivity. Qed.

(** src/macros.rs:1310 [precedence_skip_then]. *)
Definition fns_precedence_skip_then : nat -> tenv -> list val -> parser Z val val := fun f rho ps => if f =? 15 then (at_ 123 (value 321 (VNum 2))) else if f =? 18 then (at_ 321 (value 322 (VNum 42))) else if f =? 19 then (at_ 322 (value 323 (VNum 43))) else bad.
Example test_precedence_skip_then :
  run fns_precedence_skip_then [Ident 15; Group []; Lt; Star; Ident 18; Group []; Lt; Star; Ident 19; Group []] 123 = Some (Data (inp 323) (VNum 2)) /\
  run fns_precedence_skip_then [Ident 15; Group []; Lt; Star; Ident 18; Group []; Shr; Ident 19; Group []] 123 = Some (Data (inp 323) (VNum 43)) /\
  run fns_precedence_skip_then [Ident 15; Group []; Shr; Ident 18; Group []; Lt; Star; Ident 19; Group []] 123 = Some (Data (inp 323) (VNum 42)) /\
  run fns_precedence_skip_then [Ident 15; Group []; Shr; Ident 18; Group []; Shr; Ident 19; Group []] 123 = Some (Data (inp 323) (VNum 43)) /\
  run fns_precedence_skip_then [Group [Ident 15; Group []; Lt; Star; Ident 18; Group []]; Lt; Star; Ident 19; Group []] 123 = Some (Data (inp 323) (VNum 2)) /\
  run fns_precedence_skip_then [Ident 15; Group []; Lt; Star; Group [Ident 18; Group []; Lt; Star; Ident 19; Group []]] 123 = Some (Data (inp 323) (VNum 2)) /\
  run fns_precedence_skip_then [Group [Ident 15; Group []; Lt; Star; Ident 18; Group []]; Shr; Ident 19; Group []] 123 = Some (Data (inp 323) (VNum 43)) /\
  run fns_precedence_skip_then [Ident 15; Group []; Lt; Star; Group [Ident 18; Group []; Shr; Ident 19; Group []]] 123 = Some (Data (inp 323) (VNum 2)) /\
  run fns_precedence_skip_then [Group [Ident 15; Group []; Shr; Ident 18; Group []]; Lt; Star; Ident 19; Group []] 123 = Some (Data (inp 323) (VNum 42)) /\
  run fns_precedence_skip_then [Ident 15; Group []; Shr; Group [Ident 18; Group []; Lt; Star; Ident 19; Group []]] 123 = Some (Data (inp 323) (VNum 42)) /\
  run fns_precedence_skip_then [Group [Ident 15; Group []; Shr; Ident 18; Group []]; Shr; Ident 19; Group []] 123 = Some (Data (inp 323) (VNum 43)) /\
  run fns_precedence_skip_then [Ident 15; Group []; Shr; Group [Ident 18; Group []; Shr; Ident 19; Group []]] 123 = Some (Data (inp 323) (VNum 43)).
Proof. repeat split; vm_compute; reflexivity. Qed.

(** src/macros.rs:1370 [precedence_skip_alt]. *)
Definition fns_precedence_skip_alt : nat -> tenv -> list val -> parser Z val val := fun f rho ps => if f =? 15 then (at_ 123 (value 321 (VNum 2))) else if f =? 18 then (at_ 321 (value 322 (VNum 42))) else if f =? 19 then (at_ 322 (value 323 (VNum 43))) else if f =? 20 then (at_ 321 (value 323 (VNum 43))) else bad.
Example test_precedence_skip_alt :
  run fns_precedence_skip_alt [Ident 15; Group []; Lt; Star; Ident 18; Group []; Lt; Star; Ident 19; Group []] 123 = Some (Data (inp 323) (VNum 2)) /\
  run fns_precedence_skip_alt [Ident 15; Group []; Lt; Star; Ident 18; Group []; Lt; Bar; Gt; Ident 19; Group []] 123 = Some (Data (inp 322) (VNum 2)) /\
  run fns_precedence_skip_alt [Ident 15; Group []; Lt; Bar; Gt; Ident 18; Group []; Lt; Star; Ident 19; Group []] 123 = Some (Data (inp 321) (VNum 2)) /\
  run fns_precedence_skip_alt [Ident 15; Group []; Lt; Bar; Gt; Ident 18; Group []; Lt; Bar; Gt; Ident 19; Group []] 123 = Some (Data (inp 321) (VNum 2)) /\
  run fns_precedence_skip_alt [Group [Ident 15; Group []; Lt; Star; Ident 18; Group []]; Lt; Star; Ident 19; Group []] 123 = Some (Data (inp 323) (VNum 2)) /\
  run fns_precedence_skip_alt [Group [Ident 15; Group []; Lt; Star; Ident 18; Group []]; Lt; Bar; Gt; Ident 19; Group []] 123 = Some (Data (inp 322) (VNum 2)) /\
  run fns_precedence_skip_alt [Group [Ident 15; Group []; Lt; Bar; Gt; Ident 18; Group []]; Lt; Star; Ident 20; Group []] 123 = Some (Data (inp 323) (VNum 2)) /\
  run fns_precedence_skip_alt [Group [Ident 15; Group []; Lt; Bar; Gt; Ident 18; Group []]; Lt; Bar; Gt; Ident 19; Group []] 123 = Some (Data (inp 321) (VNum 2)) /\
  run fns_precedence_skip_alt [Ident 15; Group []; Lt; Star; Group [Ident 18; Group []; Lt; Star; Ident 19; Group []]] 123 = Some (Data (inp 323) (VNum 2)) /\
  run fns_precedence_skip_alt [Ident 15; Group []; Lt; Star; Group [Ident 18; Group []; Lt; Bar; Gt; Ident 19; Group []]] 123 = Some (Data (inp 322) (VNum 2)) /\
  run fns_precedence_skip_alt [Ident 15; Group []; Lt; Bar; Gt; Group [Ident 18; Group []; Lt; Star; Ident 19; Group []]] 123 = Some (Data (inp 321) (VNum 2)) /\
  run fns_precedence_skip_alt [Ident 15; Group []; Lt; Bar; Gt; Group [Ident 18; Group []; Lt; Bar; Gt; Ident 19; Group []]] 123 = Some (Data (inp 321) (VNum 2)).
Proof. repeat split; vm_compute; reflexivity. Qed.

(** src/macros.rs:1436 [precedence_alt_then]. *)
Definition fns_precedence_alt_then : nat -> tenv -> list val -> parser Z val val := fun f rho ps => if f =? 15 then (at_ 123 (value 321 (VNum 2))) else if f =? 18 then (at_ 321 (value 322 (VNum 42))) else if f =? 19 then (at_ 322 (value 323 (VNum 43))) else if f =? 20 then (at_ 321 (value 323 (VNum 43))) else bad.
Example test_precedence_alt_then :
  run fns_precedence_alt_then [Ident 15; Group []; Lt; Bar; Gt; Ident 18; Group []; Lt; Bar; Gt; Ident 19; Group []] 123 = Some (Data (inp 321) (VNum 2)) /\
  run fns_precedence_alt_then [Ident 15; Group []; Lt; Bar; Gt; Ident 18; Group []; Shr; Ident 20; Group []] 123 = Some (Data (inp 323) (VNum 43)) /\
  run fns_precedence_alt_then [Ident 15; Group []; Shr; Ident 18; Group []; Lt; Bar; Gt; Ident 19; Group []] 123 = Some (Data (inp 322) (VNum 42)) /\
  run fns_precedence_alt_then [Ident 15; Group []; Shr; Ident 18; Group []; Shr; Ident 19; Group []] 123 = Some (Data (inp 323) (VNum 43)) /\
  run fns_precedence_alt_then [Group [Ident 15; Group []; Lt; Bar; Gt; Ident 18; Group []]; Lt; Bar; Gt; Ident 19; Group []] 123 = Some (Data (inp 321) (VNum 2)) /\
  run fns_precedence_alt_then [Group [Ident 15; Group []; Lt; Bar; Gt; Ident 18; Group []]; Shr; Ident 20; Group []] 123 = Some (Data (inp 323) (VNum 43)) /\
  run fns_precedence_alt_then [Group [Ident 15; Group []; Shr; Ident 18; Group []]; Lt; Bar; Gt; Ident 19; Group []] 123 = Some (Data (inp 322) (VNum 42)) /\
  run fns_precedence_alt_then [Group [Ident 15; Group []; Shr; Ident 18; Group []]; Shr; Ident 19; Group []] 123 = Some (Data (inp 323) (VNum 43)) /\
  run fns_precedence_alt_then [Ident 15; Group []; Lt; Bar; Gt; Group [Ident 18; Group []; Lt; Bar; Gt; Ident 19; Group []]] 123 = Some (Data (inp 321) (VNum 2)) /\
  run fns_precedence_alt_then [Ident 15; Group []; Lt; Bar; Gt; Group [Ident 18; Group []; Shr; Ident 20; Group []]] 123 = Some (Data (inp 321) (VNum 2)) /\
  run fns_precedence_alt_then [Ident 15; Group []; Shr; Group [Ident 18; Group []; Lt; Bar; Gt; Ident 19; Group []]] 123 = Some (Data (inp 322) (VNum 42)) /\
  run fns_precedence_alt_then [Ident 15; Group []; Shr; Group [Ident 18; Group []; Shr; Ident 19; Group []]] 123 = Some (Data (inp 323) (VNum 43)).
Proof. repeat split; vm_compute; reflexivity. Qed.

(** src/macros.rs:1502 [alt_inline_action]. *)
Definition fns_alt_inline_action : nat -> tenv -> list val -> parser Z val val := fun f rho ps => bad.
Example test_alt_inline_action :
  run fns_alt_inline_action [Group [Ident 21; Arrow; Other 14]; Lt; Bar; Gt; Group [Ident 21; Arrow; Other 15]] 123 = Some (Data (inp 321) (VNum 21)).
Proof. repeat split; vm_compute; reflexivity. Qed.

(** src/macros.rs:1521 [then_inline_action]. *)
Definition fns_then_inline_action : nat -> tenv -> list val -> parser Z val val := fun f rho ps => bad.
Example test_then_inline_action :
  run fns_then_inline_action [Group [Ident 21; Arrow; Other 16]; Shr; Group [Ident 21; Arrow; Other 17]] 123 = Some (Data (inp 333) (VNum 42)).
Proof. repeat split; vm_compute; reflexivity. Qed.

(** src/macros.rs:1540 [skip_inline_action]. *)
Definition fns_skip_inline_action : nat -> tenv -> list val -> parser Z val val := fun f rho ps => bad.
Example test_skip_inline_action :
  run fns_skip_inline_action [Group [Ident 21; Arrow; Other 18]; Lt; Star; Group [Ident 21; Arrow; Other 19]] 123 = Some (Data (inp 333) (VNum 21)).
Proof. repeat split; vm_compute; reflexivity. Qed.

(** src/macros.rs:1560 [max_alt]. *)
Definition fns_max_alt : nat -> tenv -> list val -> parser Z val val := fun f rho ps => if f =? 15 then (at_ 123 (value 321 (VNum 2))) else bad.
Example test_max_alt :
  run fns_max_alt [Ident 15; Group []; Lt; Bar; Gt; Ident 15; Group []; Lt; Bar; Gt; Ident 15; Group []; Lt; Bar; Gt; Ident 15; Group []; Lt; Bar; Gt; Ident 15; Group []; Lt; Bar; Gt; Ident 15; Group []; Lt; Bar; Gt; Ident 15; Group []; Lt; Bar; Gt; Ident 15; Group []; Lt; Bar; Gt; Ident 15; Group []] 123 = Some (Data (inp 321) (VNum 2)).
Proof. repeat split; vm_compute; reflexivity. Qed.
