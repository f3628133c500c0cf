(** * Vocabulary: the frequency response of a filter. *)

From Coq Require Import Reals.
From Verif Require Import Base F32 Num M_Biquad S_Biquad.
Local Open Scope R_scope.

(** In the long run, and from every state, a filter with the coefficients [c] answers every
    sinusoid of angular frequency [w] with a sinusoid of the same frequency whose amplitude is
    [gain] times as large, shifted in phase by the same angle. *)
Definition has_gain (c : coeffs R) (w gain : R) : Prop :=
  exists theta, forall (b : biquad R) amp phi, bq_coeffs b = c ->
    settles_to b (sinusoid amp w phi) (sinusoid (gain * amp) w (phi + theta)).

(** The frequency of a sinusoid relative to the cut-off, warped by the bilinear transform:
    0 at frequency 0, 1 at the centre, infinite at half the sample rate. *)
Definition relative (fc sr w : R) : R := tan (w / 2) / design_k fc sr.

(** |1 - O^2 + i O / q|^2: the squared magnitude of the second-order denominator. *)
Definition resonance (q O : R) : R := (1 - O * O) * (1 - O * O) + O / q * (O / q).
