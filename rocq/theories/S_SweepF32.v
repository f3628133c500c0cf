(** * Vocabulary: a filter in f32 whose coefficients are changed while it runs (C110). *)

From Coq Require Import Reals.
From Verif Require Import Base F32 Num M_Biquad S_Biquad.
Local Open Scope R_scope.

(** No coefficient of [c] is larger in magnitude than the corresponding entry of [m]. *)
Definition within_limits (m c : coeffs R) : Prop :=
  Rabs (b0 c) <= b0 m /\ Rabs (b1 c) <= b1 m /\ Rabs (b2 c) <= b2 m /\ Rabs (a1 c) <= a1 m /\ Rabs (a2 c) <= a2 m.

(** The filter [c] with its feed-forward part replaced by a plain wire. *)
Definition recursive (c : coeffs R) : coeffs R := BC 1 0 0 (a1 c) (a2 c).

(** The recursive part of the schedule [c], started at rest, amplifies no signal more than [G] times. *)
Definition sweep_gain (c : nat -> coeffs R) (G : R) : Prop :=
  forall (u : nat -> R) S, (forall k, Rabs (u k) <= S) ->
  forall n, Rabs (response_var (bq_new (recursive (c 0%nat))) (fun k => recursive (c k)) u n) <= G * S.

(** No sample of the impulse response of the recursive part of [c] is larger than [P]. *)
Definition peak (c : coeffs R) (P : R) : Prop := forall n, Rabs (response (bq_new (recursive c)) unit_impulse n) <= P.
