(** Specifications for floats: which integers a float holds, and which of them is nearest.  Mentions nothing of the parsers or of how to round. *)
From Coq Require Import ZArith.
Open Scope Z_scope.

(** A float of [prec] significant bits holds [m] (sign and range apart). *)
Definition holds (prec m : Z) : Prop := exists q e, 0 <= q < 2 ^ prec /\ 0 <= e /\ m = q * 2 ^ e.

(** [v] is the float nearest to [m]; if there are two, the one that is divisible by a higher power of two. *)
Definition nearest (prec m v : Z) : Prop :=
  holds prec v /\
  forall w, holds prec w -> w <> v -> Z.abs (m - v) < Z.abs (m - w) \/ Z.abs (m - v) = Z.abs (m - w) /\ exists e, 0 <= e /\ (2 ^ e | v) /\ ~ (2 ^ e | w).

(** [v] is [n] up to [k] errors of one part in 2^[prec]. *)
Definition close (prec k n v : Z) : Prop := (2 ^ prec - k) * n <= 2 ^ prec * v /\ (2 ^ prec - k) * v <= 2 ^ prec * n.
