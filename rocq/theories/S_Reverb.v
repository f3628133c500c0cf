(** * Specification for C118: how fast a network of processors dies away. *)

From Coq Require Import ZArith List Reals.
From Verif Require Import Base F32 Num M_Memory M_Delay M_Biquad S_Memory S_Delay S_Biquad S_BiquadF32 S_Network.
Import ListNotations.
Local Open Scope R_scope.

(** The filter whose answer to x(n) / rho^n is y(n) / rho^n, when [c] answers x(n) with y(n). *)
Definition sped_up (rho : R) (c : coeffs R) : coeffs R :=
  BC (b0 c) (b1 c / rho) (b2 c / (rho * rho)) (a1 c / rho) (a2 c / (rho * rho)).

(** [falls rho p A B]: inputs within [A] that fall by [rho] every sample from some time on leave the plan [p] as
    outputs within [B] that fall by [rho] every sample from the same time on. One rule per part; [T] is a level of the
    low-pass in a comb, [V] of the buffer of an all-pass. *)
Inductive falls (rho : R) : plan R -> R -> R -> Prop :=
| falls_delay l A B : A <= B * rho ^ length l -> Forall (fun v => Rabs v <= B * rho ^ length l) l -> falls rho (PDelay l) A B
| falls_comb l p g A B T : l <> [] -> 0 <= p <= 1 -> 0 <= T -> (1 - p) * B + p * (T / rho) <= T -> A + Rabs g * T <= B * rho ^ length l ->
    Forall (fun v => Rabs v <= B * rho ^ length l) l -> falls rho (PComb l p g) A B
| falls_pass l A B V : l <> [] -> A + V / 2 <= V * rho ^ length l -> Forall (fun v => Rabs v <= V * rho ^ length l) l ->
    A + V <= B -> falls rho (PPass l) A B
| falls_filter c A B G : ringing (sped_up rho c) G -> forward_weight (sped_up rho c) * G * A <= B -> falls rho (PFilter c) A B
| falls_scale g A B : Rabs g * A <= B -> falls rho (PScale g) A B
| falls_series p q A B C : falls rho p A B -> falls rho q B C -> falls rho (PSeries p q) A C
| falls_mix p q A B C D : falls rho p A B -> falls rho q A C -> B + C <= D -> falls rho (PMix p q) A D.

(** Parts that die away by themselves: combs with a feedback below 1 and a dampening in [0, 1), filters with all poles
    inside the unit circle. *)
Inductive stable : plan R -> Prop :=
| stable_delay l : stable (PDelay l)
| stable_comb l p g : l <> [] -> 0 <= p < 1 -> Rabs g < 1 -> stable (PComb l p g)
| stable_pass l : l <> [] -> stable (PPass l)
| stable_filter c : poles_inside c -> stable (PFilter c)
| stable_scale g : stable (PScale g)
| stable_series p q : stable p -> stable q -> stable (PSeries p q)
| stable_mix p q : stable p -> stable q -> stable (PMix p q).
