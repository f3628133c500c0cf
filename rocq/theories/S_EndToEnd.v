(** * Vocabulary: a filter designed and run in f32 against the ideal filter (C107). *)

From Coq Require Import Reals.
From Verif Require Import Base F32 F32Lemmas Num M_Biquad S_Biquad S_BiquadF32.
Local Open Scope R_scope.

(** What the f32 filter with coefficients [c] makes of the samples [x], within [E] at every time of what the
    ideal filter with coefficients [d] makes of the same samples in exact arithmetic. *)
Definition follows {NP : NanPolicy} (c : coeffs f32) (d : coeffs R) (x : nat -> f32) (E : R) : Prop :=
  forall n, fin (response (bq_new c) x n) = true /\
    Rabs (val (response (bq_new c) x n) - response (bq_new d) (fun k => val (x k)) n) <= E.

(** Samples within [M] of zero. *)
Definition samples_within (M : R) (x : nat -> f32) : Prop := forall n, fin (x n) = true /\ Rabs (val (x n)) <= M.

(** From S = k / q and K = k^2: a bound on the ringing of a design with denominator 1 + S + K, and one on the error of
    its coefficients in f32. *)
Definition design_ringing (S K : R) : R := (1 + S + K) * (1 + S + K) / Rmin (S * S) (4 * K).
Definition design_error (S K : R) : R := pow2 (-20) * (1 + 33 * ((S + K) / (1 + S + K))).

(** The denominator terms of a bell and of a low shelf with a gain: a boost (gain from 0) has those of the other
    designs, a cut has its own. *)
Definition bell_terms (gain S K : R) : R * R := if Rle_dec 0 gain then (S, K) else (- gain * S, K).
Definition shelf_terms (gain S K : R) : R * R := if Rle_dec 0 gain then (S, K) else (sqrt (2 * (- gain * K)), - gain * K).
