(** * Vocabulary for how fast a comb filter dies away (no code of /repo here). *)

From Coq Require Import Reals.
From Verif Require Import Base F32 Num M_Delay S_Delay.
Local Open Scope R_scope.

(** A call in exact arithmetic with an input within [M], a dampening in [0, 1] or a feedback
    within [f]. *)
Definition call_within (M f : R) (op : comb_op R) : Prop :=
  match op with CTick x => Rabs x <= M | CDamp v => 0 <= v <= 1 | CFeedback v => Rabs v <= f end.

(** Falling by the factor [rho] every sample is slow enough for a comb of [n] samples whose
    feedback is at most [e] at dampening [p]: the largest root of rho^n (1 - p / rho) = e (1 - p)
    is the magnitude of the slowest mode of such a comb with positive feedback. *)
Definition decay_rate (n : nat) (p e rho : R) : Prop :=
  p < rho <= 1 /\ 0 < rho /\ e * (1 - p) <= rho ^ n * (1 - p / rho).

(** How many samples such a comb takes, at most, to fall by the factor exp(1). *)
Definition time_constant (n : nat) (p e : R) : R := (INR n + / (1 - p)) / (1 - e).
