(** * Vocabulary: a biquad in f32 against the same biquad in exact arithmetic. *)

From Coq Require Import Reals.
From Verif Require Import Base F32 Num M_Biquad S_Biquad.
Local Open Scope R_scope.

(** The coefficients as real numbers. *)
Definition exact_coeffs (c : coeffs f32) : coeffs R := BC (val (b0 c)) (val (b1 c)) (val (b2 c)) (val (a1 c)) (val (a2 c)).
Definition finite_coeffs (c : coeffs f32) : Prop :=
  fin (b0 c) = true /\ fin (b1 c) = true /\ fin (b2 c) = true /\ fin (a1 c) = true /\ fin (a2 c) = true.

(** Sums of the magnitudes of the feed-forward and of the feedback coefficients. *)
Definition forward_weight (c : coeffs R) : R := Rabs (b0 c) + Rabs (b1 c) + Rabs (b2 c).
Definition feedback_weight (c : coeffs R) : R := 1 + Rabs (a1 c) + Rabs (a2 c).

(** The total ringing of the recursive part: the magnitudes of the impulse response of
    1 / (1 + a1 z^-1 + a2 z^-2) add up to at most [G]. *)
Definition ringing (c : coeffs R) (G : R) : Prop :=
  forall N, sum_f_R0 (fun n => Rabs (response (bq_new (BC 1 0 0 (a1 c) (a2 c))) unit_impulse n)) N <= G.
