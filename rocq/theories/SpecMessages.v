(** What texts are for: telling things apart.  Independent of the model of the texts. *)
From Coq Require Import List Bool Arith String Ascii.
Import ListNotations.
Local Open Scope string_scope.

(** Different things have different texts. *)
Definition tells_apart {A} (show : A -> string) : Prop := forall a b, show a = show b -> a = b.

(** The characters of a text. *)
Fixpoint occurs (c : ascii) (s : string) : Prop :=
  match s with
  | "" => False
  | String d s => d = c \/ occurs c s
  end.

(** Texts which can be told apart within a list, too: not empty, no comma, no bracket. *)
Definition plain_text {A} (show : A -> string) : Prop :=
  tells_apart show /\ forall a, show a <> "" /\ ~ occurs "," (show a) /\ ~ occurs "[" (show a) /\ ~ occurs "]" (show a).

(** Reading a number: ten times what was read, and the next digit. *)
Fixpoint reads (acc : nat) (s : string) : option nat :=
  match s with
  | "" => Some acc
  | String c s =>
      let d := nat_of_ascii c in
      if ((48 <=? d) && (d <=? 57))%nat then reads (10 * acc + (d - 48)) s else None
  end.

(** A number in decimal: no digit missing, none too many. *)
Definition decimal_of (n : nat) (s : string) : Prop := s <> "" /\ reads 0 s = Some n /\ forall s', s = String "0" s' -> n = 0 /\ s' = "".
