(** * Specification for C120: how fast a network dies away while its settings are moved. *)

From Coq Require Import ZArith List Bool Reals.
From Verif Require Import Base F32 Num M_Memory M_Delay M_Biquad S_Memory S_Delay S_Biquad S_BiquadF32 S_Network S_SweepF32 S_Live S_Reverb.
Import ListNotations.
Local Open Scope R_scope.

(** Calls that keep the dampening of a comb within [0, P] and its feedback within [f], and a gain within [K]. *)
Definition comb_within (P f : R) (ev : event R) : Prop :=
  match ev with Turn [] (KDamp v) => 0 <= v <= P | Turn [] (KFeedback v) => Rabs v <= f | _ => True end.
Definition gain_within (K : R) (ev : event R) : Prop := match ev with Turn [] (KGain g) => Rabs g <= K | _ => True end.

(** [live_falls rho p evs A B]: given the calls in [evs], inputs within [A] that fall by [rho] every sample from some
    time on leave the plan [p] as outputs within [B] that fall by [rho] every sample from the same time on. *)
Inductive live_falls (rho : R) : plan R -> list (event R) -> R -> R -> Prop :=
| lfalls_delay l evs A B : A <= B * rho ^ length l -> Forall (fun v => Rabs v <= B * rho ^ length l) l -> live_falls rho (PDelay l) evs A B
| lfalls_comb l p g evs A B T P f : l <> [] -> 0 <= p <= P -> P < 1 -> Rabs g <= f -> Forall (comb_within P f) evs -> 0 <= T ->
    (1 - P) * B + P * (T / rho) <= T -> A + f * T <= B * rho ^ length l ->
    Forall (fun v => Rabs v <= B * rho ^ length l) l -> live_falls rho (PComb l p g) evs A B
| lfalls_pass l evs A B V : l <> [] -> A + V / 2 <= V * rho ^ length l -> Forall (fun v => Rabs v <= V * rho ^ length l) l ->
    A + V <= B -> live_falls rho (PPass l) evs A B
| lfalls_filter d evs A B (c : nat -> coeffs R) m G :
    (forall k, (k < length (in_force d evs))%nat -> nth k (in_force d evs) d = c k) ->
    (forall k, within_limits m (sped_up rho (c k))) -> sweep_gain (fun k => sped_up rho (c k)) G -> forward_weight m * G * A <= B ->
    live_falls rho (PFilter d) evs A B
| lfalls_scale g evs A B K : Rabs g <= K -> Forall (gain_within K) evs -> K * A <= B -> live_falls rho (PScale g) evs A B
| lfalls_series p q evs A B C : live_falls rho p (branch true evs) A B -> live_falls rho q (branch false evs) B C -> live_falls rho (PSeries p q) evs A C
| lfalls_mix p q evs A B C D : live_falls rho p (branch true evs) A B -> live_falls rho q (branch false evs) A C -> B + C <= D ->
    live_falls rho (PMix p q) evs A D.

(** ** Limits for all settings of a plan, at the start and in every call *)
(** Little feedback: |a1| + |a2| <= s^2; forward part within [W]. *)
Definition mild (s W : R) (c : coeffs R) : Prop := Rabs (a1 c) + Rabs (a2 c) <= s * s /\ forward_weight c <= W.
Definition filter_within (s W : R) (ev : event R) : Prop := match ev with Turn [] (KCoeffs c) => mild s W c | _ => True end.

Fixpoint moves_within (P f s W K : R) (p : plan R) (evs : list (event R)) : Prop :=
  match p with
  | PDelay _ => True
  | PComb l d g => l <> [] /\ 0 <= d <= P /\ Rabs g <= f /\ Forall (comb_within P f) evs
  | PPass l => l <> []
  | PFilter c => mild s W c /\ Forall (filter_within s W) evs
  | PScale g => Rabs g <= K /\ Forall (gain_within K) evs
  | PSeries p q | PMix p q => moves_within P f s W K p (branch true evs) /\ moves_within P f s W K q (branch false evs)
  end.
