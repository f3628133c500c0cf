(** * Vocabulary: a filter whose coefficients are changed while it runs (C110). *)

From Coq Require Import Reals Arith.
From Verif Require Import Base F32 Num M_Biquad S_Biquad.
Local Open Scope R_scope.

(** Two settings in turn, a new one before every sample. *)
Definition alternate {F : Type} (c c' : coeffs F) (n : nat) : coeffs F := if Nat.even n then c else c'.

(** One of the four designs that have no gain. *)
Definition plain_design {F : Type} {NF : Num F} {MO : MathOps F} (fc q sr : F) (c : coeffs F) : Prop :=
  c = lowpass fc q sr \/ c = highpass fc q sr \/ c = allpass fc q sr \/ c = notch fc q sr.

(** How far a design is from a quarter of the sample rate, where the tangent [k] of half its cut-off angle
    is 1: q (k - 1/k), negative below and positive above. *)
Definition detune (k q : R) : R := q * (k - / k).

(** The schedule [c] keeps every new setting for at least [L] samples. *)
Definition held {F : Type} (L : nat) (c : nat -> coeffs F) : Prop :=
  forall n, c (S n) <> c n -> forall j, (j < L)%nat -> c (S n + j)%nat = c (S n).
