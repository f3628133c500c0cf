(** * Vocabulary: the filter designs computed in f32 (C96). *)

From Coq Require Import Reals.
From Verif Require Import Base F32 Num M_FloatMath M_Biquad S_Biquad S_BiquadF32.
Local Open Scope R_scope.

(** The textbook coefficients from K = k^2 and S = k / q. *)
Definition textbook_lowpass (S K : R) : coeffs R :=
  BC (K / (1 + S + K)) (2 * K / (1 + S + K)) (K / (1 + S + K)) (2 * (K - 1) / (1 + S + K)) ((1 - S + K) / (1 + S + K)).
Definition textbook_highpass (S K : R) : coeffs R :=
  BC (1 / (1 + S + K)) (-2 / (1 + S + K)) (1 / (1 + S + K)) (2 * (K - 1) / (1 + S + K)) ((1 - S + K) / (1 + S + K)).
Definition textbook_allpass (S K : R) : coeffs R :=
  BC ((1 - S + K) / (1 + S + K)) (2 * (K - 1) / (1 + S + K)) 1 (2 * (K - 1) / (1 + S + K)) ((1 - S + K) / (1 + S + K)).
Definition textbook_notch (S K : R) : coeffs R :=
  BC ((1 + K) / (1 + S + K)) (2 * (K - 1) / (1 + S + K)) ((1 + K) / (1 + S + K)) (2 * (K - 1) / (1 + S + K)) ((1 - S + K) / (1 + S + K)).

(** Every coefficient of [c] is finite and within [e] of that of [d]. *)
Definition coeffs_within (e : R) (c : coeffs f32) (d : coeffs R) : Prop :=
  finite_coeffs c /\
  Rabs (val (b0 c) - b0 d) <= e /\ Rabs (val (b1 c) - b1 d) <= e /\ Rabs (val (b2 c) - b2 d) <= e /\
  Rabs (val (a1 c) - a1 d) <= e /\ Rabs (val (a2 c) - a2 d) <= e.

(** The terms k/q and k^2 of a denominator 1 + k/q + k^2, as computed in f32, neither too small nor too large
    for f32: each is at least a 2^-21th of the denominator and the denominator at most 2^21. *)
Definition moderate (s k2 : f32) : Prop :=
  let d := 1 + val s + val k2 in
  fin s = true /\ fin k2 = true /\ d <= 2097152 /\ d / 2097152 <= val s /\ d / 2097152 <= val k2.

(** The long-run gain of a filter for a constant input. *)
Definition dc_gain (c : coeffs R) (g : R) : Prop :=
  forall b x, bq_coeffs b = c -> settles_to b (constant x) (constant (g * x)).
