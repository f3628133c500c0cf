(** * Vocabulary: the tangent in f32 (C97). *)

From Coq Require Import ZArith Reals.
From Verif Require Import Base F32 F32Lemmas Num M_FloatMath S_Biquad.
Local Open Scope R_scope.

(** What is asked of the external integer power on [-2, 2]: a relative error of at most 2^-20, and an absolute
    error of at most 2^-130 where the result is too small for a relative one. *)
Definition close_powi (MO : MathOps f32) : Prop := forall (x : f32) (n : Z), (1 <= n <= 15)%Z ->
  fin x = true -> Rabs (val x) <= 2 ->
  fin (m_powi x n) = true /\
  Rabs (val (m_powi x n) - val x ^ Z.to_nat n) <= pow2 (-20) * Rabs (val x) ^ Z.to_nat n + pow2 (-130).

(** Arguments of a design: pi fc / sr in a given range, q from 1/8 to 1024. *)
Definition design_args (lo hi : R) (fc q sr : f32) : Prop :=
  fin fc = true /\ 1 <= val sr <= 1073741824 /\ lo <= pi32 * val fc / val sr <= hi /\ / 8 <= val q <= 1024.

(** From 15 Hz to 22.9 kHz at a sample rate of 48 kHz. *)
Definition audible (fc q sr : f32) : Prop := design_args (pow2 (-10)) (3 / 2) fc q sr.

(** From 2e-5 Hz to 0.93 Hz at a sample rate of 48 kHz. *)
Definition subsonic (fc q sr : f32) : Prop := design_args (pow2 (-30)) (pow2 (-14)) fc q sr.
