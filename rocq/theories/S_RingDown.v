(** * Vocabulary for how fast a biquad dies away (no code of /repo here). *)

From Coq Require Import Reals.
From Verif Require Import Base F32 Num M_Biquad S_Biquad.
Local Open Scope R_scope.

(** Every root u + iv of z^2 + a1 z + a2 lies strictly within the distance [r] of 0. *)
Definition poles_within (r : R) (c : coeffs R) : Prop :=
  forall u v, u * u - v * v + a1 c * u + a2 c = 0 -> 2 * u * v + a1 c * v = 0 -> u * u + v * v < r * r.

(** By how much the output may first swing up: 1 when the two poles are opposite, more as one of them nears [r]. *)
Definition swing (r : R) (c : coeffs R) : R := (r * r + a2 c + Rabs (a1 c) * r) / (r * r + a2 c - Rabs (a1 c) * r).

(** What two successive outputs of the ringing filter hold. *)
Definition held_energy (c : coeffs R) (now before : R) : R := now * now + a1 c * (now * before) + a2 c * (before * before).
