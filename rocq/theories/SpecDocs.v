(** What the programs in the documentation are meant to accept, in terms of the texts alone.  Of the library only the form of a result is used
    ([pres], [input], [error]), of the programs only their types of values. *)
From Coq Require Import List Bool Arith ZArith.
From Coq.Init Require Import Byte.
From Coq.Strings Require Import Byte.
From Verif Require Import Base Parsers SpecAscii Docs.
Import ListNotations.

Set Implicit Arguments.

(** The error of a parser which met something unexpected, and of [token]. *)
Definition unexpected (verbose : bool) : error byte := if verbose then Unexpected else EPlain.
Definition expected (verbose : bool) (c : byte) : error byte := if verbose then Expected c else EPlain.

(** [w] is one or more bytes without [c]. *)
Definition word_without (c : byte) (w : list byte) : Prop := w <> [] /\ ~ In c w.

(** * A name: all that can happen on a slice, which is the last one if [l] *)
Inductive name_reading (verbose l : bool) : list byte -> pres byte name_t (error byte) -> Prop :=
| nr_empty : name_reading verbose l [] (Incomplete 1)
| nr_space : forall r, name_reading verbose l (" "%byte :: r) (Error (" "%byte :: r) (unexpected verbose))
| nr_first : forall f, word_without " " f -> name_reading verbose l f (Incomplete 1)
| nr_first_space : forall f, word_without " " f -> name_reading verbose l (f ++ [" "%byte]) (Incomplete 1)
| nr_newline : forall f r, word_without " " f -> name_reading verbose l (f ++ " "%byte :: x0a :: r) (Error (x0a :: r) (unexpected verbose))
| nr_open : forall f w, word_without " " f -> word_without x0a w ->
    name_reading verbose l (f ++ " "%byte :: w) (if l then Data (mkInput l []) (mkName f w) else Incomplete 1)
| nr_line : forall f w r, word_without " " f -> word_without x0a w ->
    name_reading verbose l (f ++ " "%byte :: w ++ x0a :: r) (Data (mkInput l (x0a :: r)) (mkName f w)).

(** * An address *)
(** The digits of an octet, whatever its value. *)
Definition octet (ds : list byte) : Prop := ds <> [] /\ Forall a_digit ds.
(** Octets each followed by a dot. *)
Definition dotted (ds : list (list byte)) : list byte := concat (List.map (fun d => d ++ ["."%byte]) ds).
Definition address (d1 d2 d3 d4 : list byte) : list byte := ["i"; "p"; ":"]%byte ++ dotted [d1; d2; d3] ++ d4 ++ [";"%byte].
Definition small (ds : list byte) : Prop := (number ds <= 255)%Z.

(** * A severity *)
Definition severities : list (list byte * log_t) :=
  [(["E"; "R"; "R"; "O"; "R"]%byte, LogError); (["W"; "A"; "R"; "N"]%byte, LogWarning); (["I"; "N"; "F"; "O"]%byte, LogInfo); (["D"; "E"; "B"; "U"; "G"]%byte, LogDebug)].

(** * The start of a text with a heading: all that can happen *)
Definition blank (c : byte) : Prop := In c [x09; x0a; x0b; x0c; x0d; x20].
Definition line_end (c : byte) : Prop := c = x0d \/ c = x0a.
(** A title: starts with something that is not blank, has no line end. *)
Definition title (t : list byte) : Prop :=
  match t with
  | [] => False
  | c :: _ => ~ blank c /\ Forall (fun c => ~ line_end c) t
  end.
Inductive heading_reading (verbose l : bool) : list byte -> pres byte (list byte) (error byte) -> Prop :=
| hr_none : forall s, ~ In "#"%byte s -> heading_reading verbose l s (Incomplete 1)
| hr_blank : forall p ws, ~ In "#"%byte p -> Forall blank ws -> heading_reading verbose l (p ++ "#"%byte :: ws) (Incomplete 1)
| hr_not : forall p c r, ~ In "#"%byte p -> ~ blank c -> heading_reading verbose l (p ++ "#"%byte :: c :: r) (Error (c :: r) (unexpected verbose))
| hr_open : forall p ws t, ~ In "#"%byte p -> ws <> [] -> Forall blank ws -> title t ->
    heading_reading verbose l (p ++ "#"%byte :: ws ++ t) (if l then Data (mkInput l []) t else Incomplete 1)
| hr_line : forall p ws t c r, ~ In "#"%byte p -> ws <> [] -> Forall blank ws -> title t -> line_end c ->
    heading_reading verbose l (p ++ "#"%byte :: ws ++ t ++ c :: r) (Data (mkInput l (c :: r)) t).

(** * A severity: all that can happen.  The difference is with the last alternative. *)
Definition starts_with_severity (s : list byte) : Prop := exists w v r, In (w, v) severities /\ s = w ++ r.
Definition last_word : list byte := ["D"; "E"; "B"; "U"; "G"]%byte.
(** [s] and [w] agree on [n] bytes and not on the next one. *)
Definition departs (w s : list byte) (n : nat) : Prop := exists p x y v t, length p = n /\ w = p ++ x :: v /\ s = p ++ y :: t /\ x <> y.
Inductive log_reading (verbose l : bool) : list byte -> pres byte log_t (error byte) -> Prop :=
| lr_word : forall w v r, In (w, v) severities -> l = true \/ 5 <= length (w ++ r) -> log_reading verbose l (w ++ r) (Data (mkInput l r) v)
| lr_short : forall s, length s < 5 -> l = false \/ ~ starts_with_severity s -> log_reading verbose l s (Incomplete (5 - length s))
| lr_other : forall s n, 5 <= length s -> ~ starts_with_severity s -> departs last_word s n ->
    log_reading verbose l s (if verbose then Error s (EString last_word) else Error (skipn n s) EPlain).

(** * Two digits and the missiles: all that can happen *)
Definition missiles : list byte := ["m"; "i"; "s"; "s"; "i"; "l"; "e"; "s"]%byte.
Inductive launch_reading (verbose l : bool) : list byte -> pres byte (Z * Z * Z) (error byte) -> Prop :=
| la_empty : launch_reading verbose l [] (Incomplete 1)
| la_no_digit : forall c r, ~ a_digit c -> launch_reading verbose l (c :: r) (Error (c :: r) (unexpected verbose))
| la_one : forall c, a_digit c -> launch_reading verbose l [c] (Incomplete 1)
| la_one_digit : forall c d r, a_digit c -> ~ a_digit d -> launch_reading verbose l (c :: d :: r) (Error (d :: r) (unexpected verbose))
| la_short : forall c d s, a_digit c -> a_digit d -> length s < length missiles ->
    launch_reading verbose l (c :: d :: s) (Incomplete (length missiles - length s))
| la_other : forall c d s n, a_digit c -> a_digit d -> length missiles <= length s -> departs missiles s n ->
    launch_reading verbose l (c :: d :: s) (if verbose then Error s (EString missiles) else Error (skipn n s) EPlain)
| la_fire : forall c d x y r, digit_value c = Some x -> digit_value d = Some y ->
    launch_reading verbose l (c :: d :: missiles ++ r) (Data (mkInput l r) (x, y, x + y)%Z).
