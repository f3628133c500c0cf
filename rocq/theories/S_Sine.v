(** * Specification of the fixed-point sine: a polynomial in unbounded integers. *)

From Coq Require Import ZArith List.
Import ListNotations.
Open Scope Z_scope.

(** Coefficient of the polynomial, scaled by 2^15 (times pi/2 for the lowest). *)
Definition sin_coeff (d : nat) : Z :=
  match d with
  | 0%nat => 102944 | 1%nat => -42334 | 2%nat => 5223 | 3%nat => -307 | 4%nat => 10 | _ => 0
  end.

(** Horner evaluation in x^2 with x = p / 2^15, rounding down after every product. *)
Fixpoint sin_horner (p : Z) (d : nat) (acc : Z) : Z :=
  match d with
  | O => acc
  | S d' => sin_horner p d' ((acc + sin_coeff d) * p / 2 ^ 15 * p / 2 ^ 15)
  end.

Definition clamp16 (z : Z) : Z := Z.max (- 32768) (Z.min 32767 z).

(** The value for a polynomial with [d] terms above the linear one. *)
Definition sin_fixed (p : Z) (d : nat) : Z :=
  clamp16 ((sin_horner p d 0 + sin_coeff 0) * p / 2 ^ 16).
