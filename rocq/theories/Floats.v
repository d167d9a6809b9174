(** Model of the IEEE 754 binary floats (Rust's [f32], [f64]) as a type for the number parsers of src/ascii.rs:123-163.  No proofs here.
    conv 0.3.2 implements [ValueFrom<u8>] and [ValueFrom<i8>] with [Err=NoError] for both; [Add] and [Mul] round to nearest, ties to even.
    Only integers arise from integers by [+] and [*], so fractions and subnormal numbers are left out, which changes nothing. *)
From Coq Require Import Bool ZArith.
From Verif Require Import Numbers.
Open Scope Z_scope.

(** Values of the parameter [T] of src/ascii.rs:124, 150: a sign ([true] is minus) and a magnitude, infinities, and not-a-number. Zero has a sign. *)
Inductive float : Type := Fin (neg : bool) (m : Z) | Inf (neg : bool) | NaN.

Section Floats.
  (** Significant bits (24 for [f32], 53 for [f64]); finite magnitudes are below 2^[emax] (128, 1024). *)
  Variables (prec emax : Z).

  (** The rounding done by [*] and [+] of src/ascii.rs:129 and 162: to [prec] significant bits, to nearest, ties to even. *)
  Definition round (m : Z) : Z :=
    let t := 2 ^ Z.max 0 (Z.log2 m + 1 - prec) in
    let q := m / t in
    let r := m mod t in
    t * (if 2 * r <? t then q else if t <? 2 * r then q + 1 else if Z.even q then q else q + 1).

  (** The result with magnitude [m] before rounding, as by [*] and [+] of src/ascii.rs:129 and 162: too large is infinite. *)
  Definition rounded (neg : bool) (m : Z) : float := if 2 ^ emax <=? round m then Inf neg else Fin neg (round m).

  (** [Mul::mul] of src/ascii.rs:129 and 162. *)
  Definition float_mul (x y : float) : float :=
    match x, y with
    | Fin s m, Fin s' m' => rounded (xorb s s') (m * m')
    | Inf s, Fin s' m | Fin s m, Inf s' => if m =? 0 then NaN else Inf (xorb s s')
    | Inf s, Inf s' => Inf (xorb s s')
    | _, _ => NaN
    end.

  (** [Add::add] of src/ascii.rs:162. *)
  Definition float_add (x y : float) : float :=
    match x, y with
    | Fin s m, Fin s' m' =>
        if eqb s s' then rounded s (m + m')
        else if m =? m' then Fin false 0
        else if m' <? m then rounded s (m - m') else rounded s' (m' - m)
    | Inf s, Inf s' => if eqb s s' then Inf s else NaN
    | Inf s, Fin _ _ | Fin _ _, Inf s => Inf s
    | _, _ => NaN
    end.

  (** The bounds of src/ascii.rs:124, 150, 161 for a float. [value_from] of [u8] and [i8] is exact (given 8 significant bits). No operation panics. *)
  Definition float_num : num_ops float :=
    mkNum (fun z => Some (Fin false z)) (fun z => Some (Fin (z <? 0) (Z.abs z)))
      (fun a b => Some (float_add a b)) (fun a b => Some (float_mul a b)).
End Floats.

(** [f32] and [f64] as the parameter [T] of src/ascii.rs:124, 150. *)
Definition f32 : num_ops float := float_num 24 128.
Definition f64 : num_ops float := float_num 53 1024.
